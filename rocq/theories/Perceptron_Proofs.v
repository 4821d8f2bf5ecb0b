(** * Proofs about the perceptron: flat arrays against the mathematical network *)
From Coq Require Import ZArith List Bool Lia.
From Verif Require Import CppBase CppFacts NumOps Perceptron_Model Perceptron_Spec.
Import ListNotations.
Local Open Scope Z_scope.

(** Loops and arrays with natural numbers. *)
Lemma forN : forall S (P : nat -> S -> Prop) body n i s,
  P 0%nat s ->
  (forall k s, (k < n)%nat -> P k s -> exists s', body (i + Z.of_nat k) s = Ok s' /\ P (Datatypes.S k) s') ->
  exists s', forZ n i body s = Ok s' /\ P n s'.
Proof.
  intros S P body n i s H0 Hs.
  destruct (forZ_inv _ (fun j s => P (Z.to_nat (j - i)) s) body n i s) as [s' [E H]].
  - now replace (Z.to_nat (i - i)) with 0%nat by lia.
  - intros j t Hj Ht. destruct (Hs (Z.to_nat (j - i)) t ltac:(lia) Ht) as [t' [E H]].
    exists t'. split; [now replace (i + Z.of_nat (Z.to_nat (j - i))) with j in E by lia|].
    now replace (Z.to_nat (j + 1 - i)) with (Datatypes.S (Z.to_nat (j - i))) by lia.
  - exists s'. split; [exact E|]. now replace (Z.to_nat (i + Z.of_nat n - i)) with n in H by lia.
Qed.

Lemma rdN : forall A (l : list A) k a, nth_error l k = Some a -> rd l (Z.of_nat k) = Ok a.
Proof. intros. apply rd_ok_iff. split; [lia|]. now rewrite Nat2Z.id. Qed.
Lemma rdN_nth : forall A (l : list A) k d, (k < length l)%nat -> rd l (Z.of_nat k) = Ok (nth k l d).
Proof. intros. apply rdN. now apply nth_error_nth'. Qed.
Lemma rdiN : forall A (l : list (option A)) k a, nth_error l k = Some (Some a) -> rdi l (Z.of_nat k) = Ok a.
Proof. intros. unfold rdi. now rewrite (rdN _ _ _ _ H). Qed.
Lemma wrN : forall A (l : list A) k v, (k < length l)%nat -> wr l (Z.of_nat k) v = Ok (upd l k v).
Proof. intros. rewrite wr_ok by lia. now rewrite Nat2Z.id. Qed.

Section Shape.
  Variable size : nat -> nat.
  Local Notation nb := (neurons_before size).
  Local Notation wb := (weights_before size).
  Local Notation place := (place size).

  Lemma wb_S : forall l, (1 <= l)%nat -> wb (S l) = (wb l + size l * (size (pred l) + 1))%nat.
  Proof. intros [|l] H; [lia|]. reflexivity. Qed.
  Lemma nb_mono : forall a b, (a <= b)%nat -> (nb a <= nb b)%nat.
  Proof. induction 1; [lia|]. cbn [neurons_before]. lia. Qed.
  Lemma wb_mono : forall a b, (a <= b)%nat -> (wb a <= wb b)%nat.
  Proof.
    induction 1 as [|b H IH]; [lia|]. destruct b as [|b]; [cbn in *; lia|]. rewrite wb_S by lia. lia.
  Qed.
  Lemma nb_lt : forall l i n, (l < n)%nat -> (i < size l)%nat -> (nb l + i < nb n)%nat.
  Proof. intros l i n H Hi. pose proof (nb_mono (S l) n H) as M. cbn [neurons_before] in M. lia. Qed.
  Lemma nb_inj : forall l i l' i', (i < size l)%nat -> (i' < size l')%nat -> (nb l + i = nb l' + i')%nat -> l = l' /\ i = i'.
  Proof.
    intros l i l' i' H H' E. destruct (Nat.lt_trichotomy l l') as [L|[->|L]].
    - pose proof (nb_lt l i l' L H). lia.
    - split; [reflexivity|lia].
    - pose proof (nb_lt l' i' l L H'). lia.
  Qed.

  (** Valid weight coordinates of layer [l]. *)
  Definition coord (l i j : nat) : Prop := (1 <= l)%nat /\ (i < size l)%nat /\ (j <= size (pred l))%nat.

  Lemma place_range : forall l i j, coord l i j -> (wb l <= place l i j < wb (S l))%nat.
  Proof. intros l i j [H1 [H2 H3]]. rewrite wb_S by lia. unfold Perceptron_Spec.place. nia. Qed.
  Lemma place_lt : forall l i j n, coord l i j -> (l < n)%nat -> (place l i j < wb n)%nat.
  Proof. intros l i j n C H. pose proof (place_range _ _ _ C). pose proof (wb_mono (S l) n H). lia. Qed.
  Lemma place_inj : forall l i j l' i' j', coord l i j -> coord l' i' j' -> place l i j = place l' i' j' ->
    l = l' /\ i = i' /\ j = j'.
  Proof.
    intros l i j l' i' j' C C' E. pose proof (place_range _ _ _ C) as R. pose proof (place_range _ _ _ C') as R'.
    destruct (Nat.lt_trichotomy l l') as [L|[->|L]].
    - pose proof (wb_mono (S l) l' L). lia.
    - destruct C as [_ [C1 C2]], C' as [_ [C1' C2']]. unfold Perceptron_Spec.place in E.
      assert (i = i') by nia. subst. split; [reflexivity|]. split; [reflexivity|]. lia.
    - pose proof (wb_mono (S l') l L). lia.
  Qed.
  (** Every place below the total belongs to some weight. *)
  Lemma place_onto : forall n k, (k < wb n)%nat -> exists l i j, (l < n)%nat /\ coord l i j /\ k = place l i j.
  Proof.
    induction n as [|n IH]; intros k H; [cbn in H; lia|]. destruct n as [|n]; [cbn in H; lia|].
    rewrite wb_S in H by lia. cbn [pred] in H. destruct (Nat.lt_ge_cases k (wb (S n))) as [L|G].
    - destruct (IH k L) as [l [i [j [A [B C]]]]]. exists l, i, j. split; [lia|]. auto.
    - set (r := (k - wb (S n))%nat). exists (S n), (r / (size n + 1))%nat, (r mod (size n + 1))%nat.
      split; [lia|]. pose proof (Nat.div_mod r (size n + 1) ltac:(lia)) as D.
      pose proof (Nat.mod_upper_bound r (size n + 1) ltac:(lia)) as M. split.
      + split; [lia|]. cbn [pred]. split; [|lia]. apply Nat.div_lt_upper_bound; [lia|]. unfold r. nia.
      + unfold Perceptron_Spec.place. cbn [pred]. unfold r in *. nia.
  Qed.
End Shape.

Section Net.
  Variable O : ops.
  Variable act deriv : num O -> num O.
  Variable sz : list nat.
  Hypothesis Ne : sz <> [].
  Local Notation lc := (Z.of_nat (length sz)).
  Definition size (l : nat) : nat := nth l sz 0%nat.
  Local Notation last := (length sz - 1)%nat.
  Local Notation nb := (neurons_before size).
  Local Notation wb := (weights_before size).
  Local Notation place := (place size).
  Local Notation coord := (coord size).
  Local Notation mlp := (mlp O).
  Local Notation zero := (nofZ O 0).

  (** An object of this shape whose arrays have [t] cells. *)
  Definition shaped (t : nat) (m : mlp) : Prop :=
    layer_size O m = map Z.of_nat sz /\ length (weights O m) = t /\ length (neuron_output O m) = t.
  Definition fits (t : nat) : Prop := (nb (length sz) <= t)%nat /\ (wb (length sz) <= t)%nat.
  Definition weight_at (ws : list (num O)) (l i j : nat) : num O := nth (place l i j) ws zero.

  Lemma len_pos : (0 < length sz)%nat.
  Proof. clear - Ne. destruct sz; [congruence|cbn; lia]. Qed.

  Lemma rd_size : forall m t l, shaped t m -> (l < length sz)%nat -> rd (layer_size O m) (Z.of_nat l) = Ok (Z.of_nat (size l)).
  Proof.
    intros m t l [S _] H. rewrite S. rewrite (rdN_nth _ _ _ 0) by (rewrite map_length; lia). f_equal.
    unfold size. change 0 with (Z.of_nat 0) at 1. apply map_nth.
  Qed.

  Variable t : nat.
  Hypothesis Fit : fits t.

  Lemma no_range : forall l i, (l < length sz)%nat -> (i < size l)%nat -> (nb l + i < t)%nat.
  Proof. intros l i Hl Hi. pose proof (nb_lt size l i (length sz) Hl Hi). unfold fits in Fit. lia. Qed.
  Lemma ws_range : forall l i j, (l < length sz)%nat -> coord l i j -> (place l i j < t)%nat.
  Proof. intros l i j Hl C. pose proof (place_lt size l i j (length sz) C Hl). unfold fits in Fit. lia. Qed.

  (** ** feed_forward *)
  Section Forward.
    Variable m : mlp.
    Hypothesis Sh : shaped t m.
    Variable x : list (num O).
    Hypothesis Hx : length x = size 0.
    Local Notation w := (weight_at (weights O m)).
    Local Notation xf := (fun i => nth i x zero).
    Local Notation out := (output O size act w xf).

    Definition holds (n : nat) (no : list (option (num O))) : Prop :=
      length no = t /\ forall l i, (l < n)%nat -> (i < size l)%nat -> nth_error no (nb l + i) = Some (Some (out l i)).

    Lemma forward_ok : forall l no, (S l < length sz)%nat -> holds (S l) no ->
      exists no', forward_layer O act m (Z.of_nat (size l)) (Z.of_nat (size (S l))) (Z.of_nat (nb l)) (Z.of_nat (wb (S l))) no = Ok no' /\
        holds (S (S l)) no'.
    Proof.
      intros l no Hl [L0 H]. unfold forward_layer. rewrite !Nat2Z.id.
      destruct (forN _ (fun k no' => length no' = t /\
          (forall l' i, (l' < S l)%nat -> (i < size l')%nat -> nth_error no' (nb l' + i) = Some (Some (out l' i))) /\
          (forall i, (i < k)%nat -> nth_error no' (nb (S l) + i) = Some (Some (out (S l) i))))
        (fun neuron_idx no =>
         do sum <- forZ (size l) 0
           (fun weight_idx sum =>
              do w <- rd (weights O m) (Z.of_nat (wb (S l)) + neuron_idx * (Z.of_nat (size l) + 1) + weight_idx);
              do v <- rdi no (Z.of_nat (nb l) + weight_idx);
              Ok (nadd O sum (nmul O w v))) (nofZ O 0);
         do w <- rd (weights O m) (Z.of_nat (wb (S l)) + neuron_idx * (Z.of_nat (size l) + 1) + Z.of_nat (size l));
         wr no (Z.of_nat (nb l) + Z.of_nat (size l) + neuron_idx) (Some (act (nadd O sum w))))
        (size (S l)) 0 no) as [no' [E [A [B C]]]].
      - split; [exact L0|]. split; [exact H|]. intros; lia.
      - intros k no1 Hk [A [B C]]. rewrite Z.add_0_l.
        destruct (forN _ (fun j sum => sum = total O (fun j => nmul O (w (S l) k j) (out l j)) j)
          (fun weight_idx sum =>
              do w <- rd (weights O m) (Z.of_nat (wb (S l)) + Z.of_nat k * (Z.of_nat (size l) + 1) + weight_idx);
              do v <- rdi no1 (Z.of_nat (nb l) + weight_idx);
              Ok (nadd O sum (nmul O w v))) (size l) 0 (nofZ O 0)) as [sum [E1 E2]].
        + reflexivity.
        + intros j sum Hj ->. rewrite Z.add_0_l.
          assert (Cj : coord (S l) k j) by (split; [lia|split; [exact Hk|cbn [pred]; lia]]).
          replace (Z.of_nat (wb (S l)) + Z.of_nat k * (Z.of_nat (size l) + 1) + Z.of_nat j) with (Z.of_nat (place (S l) k j))
            by (unfold Perceptron_Spec.place; cbn [pred]; lia).
          pose proof (ws_range (S l) k j Hl Cj) as R. destruct Sh as [_ [Lw _]].
          rewrite (rdN_nth _ _ _ zero) by lia. cbn [bind].
          rewrite <- Nat2Z.inj_add. rewrite (rdiN _ _ _ (out l j)) by (apply B; lia). cbn [bind].
          eexists. split; [reflexivity|]. reflexivity.
        + rewrite E1. cbn [bind].
          assert (Cj : coord (S l) k (size l)) by (split; [lia|split; [exact Hk|cbn [pred]; lia]]).
          replace (Z.of_nat (wb (S l)) + Z.of_nat k * (Z.of_nat (size l) + 1) + Z.of_nat (size l)) with (Z.of_nat (place (S l) k (size l)))
            by (unfold Perceptron_Spec.place; cbn [pred]; lia).
          pose proof (ws_range (S l) k (size l) Hl Cj) as R. destruct Sh as [_ [Lw _]].
          rewrite (rdN_nth _ _ _ zero) by lia. cbn [bind].
          replace (Z.of_nat (nb l) + Z.of_nat (size l) + Z.of_nat k) with (Z.of_nat (nb (S l) + k)) by (cbn [neurons_before]; lia).
          pose proof (no_range (S l) k Hl Hk) as Rn. rewrite wrN by lia.
          eexists. split; [reflexivity|]. rewrite upd_length. split; [exact A|]. split.
          * intros l' i Hl' Hi. rewrite nth_error_upd_other; [apply B; auto|].
            intros Ei. apply nb_inj in Ei; auto. lia.
          * intros i Hi. destruct (Nat.eq_dec i k) as [->|Nk].
            -- rewrite nth_error_upd_same by lia. rewrite E2. reflexivity.
            -- rewrite nth_error_upd_other by lia. apply C. lia.
      - exists no'. split; [exact E|]. split; [exact A|]. intros l' i Hl' Hi.
        destruct (Nat.eq_dec l' (S l)) as [->|Nl]; [now apply C|]. apply B; auto. lia.
    Qed.

    Lemma feed_ok : forall o, length o = size last ->
      exists m' o', feed_forward O lc act m x o = Ok (m', o') /\
        learning_rate O m' = learning_rate O m /\ weights O m' = weights O m /\ layer_size O m' = layer_size O m /\
        holds (length sz) (neuron_output O m') /\ o' = map (out last) (seq 0 (size last)).
    Proof.
      intros o Ho. pose proof len_pos as Lp. unfold feed_forward.
      change 0 with (Z.of_nat 0) at 1. rewrite (rd_size m t 0 Sh Lp). cbn [bind]. rewrite Nat2Z.id.
      destruct (forN _ (fun k no => length no = t /\ forall i, (i < k)%nat -> nth_error no i = Some (Some (xf i)))
        (fun n no => do x0 <- rd x n; wr no n (Some x0)) (size 0) 0 (neuron_output O m)) as [no0 [E0 [L0 H0]]].
      { split; [apply Sh|]. intros; lia. }
      { intros k no Hk [A B]. rewrite Z.add_0_l. rewrite (rdN_nth _ _ _ zero) by lia. cbn [bind].
        pose proof (no_range 0 k Lp Hk) as Rn. cbn [neurons_before Nat.add] in Rn. rewrite wrN by lia.
        eexists. split; [reflexivity|]. rewrite upd_length. split; [exact A|]. intros i Hi.
        destruct (Nat.eq_dec i k) as [->|Nk].
        - rewrite nth_error_upd_same by lia. reflexivity.
        - rewrite nth_error_upd_other by lia. apply B. lia. }
      change (Z.of_nat 0) with 0. rewrite E0. cbn [bind].
      replace (Z.to_nat (lc - 1)) with last by lia.
      destruct (forN _ (fun k (st : list (option (num O)) * Z * Z) =>
          exists no, st = (no, Z.of_nat (nb k), Z.of_nat (wb (S k))) /\ holds (S k) no)
        (fun layer_idx '(no, output_base, weight_base) =>
         do cur <- rd (layer_size O m) layer_idx;
         do prev <- rd (layer_size O m) (layer_idx - 1);
         do no <- forward_layer O act m prev cur output_base weight_base no;
         Ok (no, output_base + prev, weight_base + cur * (prev + 1))) last 1 (no0, 0, 0)) as [st [E1 [no1 [-> H1]]]].
      { exists no0. split; [reflexivity|]. split; [exact L0|]. intros l i Hl Hi. assert (l = 0)%nat by lia. subst l. now apply H0. }
      { intros k st Hk [no [-> H]].
        replace (1 + Z.of_nat k) with (Z.of_nat (S k)) by lia. rewrite (rd_size m t (S k) Sh) by lia. cbn [bind].
        replace (Z.of_nat (S k) - 1) with (Z.of_nat k) by lia. rewrite (rd_size m t k Sh) by lia. cbn [bind].
        destruct (forward_ok k no ltac:(lia) H) as [no' [E H']]. rewrite E. cbn [bind].
        eexists. split; [reflexivity|]. exists no'. split; [|exact H'].
        rewrite (wb_S size (S k)) by lia. cbn [neurons_before pred]. f_equal; [f_equal|]; lia. }
      rewrite E1. cbn [bind].
      replace (lc - 1) with (Z.of_nat last) by lia. rewrite (rd_size m t last Sh) by lia. cbn [bind]. rewrite Nat2Z.id.
      replace (S last) with (length sz) in H1 by lia.
      destruct (forN _ (fun k o' => length o' = size last /\ forall i, (i < k)%nat -> nth_error o' i = Some (out last i))
        (fun n output => do v <- rdi no1 (Z.of_nat (nb last) + n); wr output n v) (size last) 0 o) as [o' [E2 [L2 H2]]].
      { split; [exact Ho|]. intros; lia. }
      { intros k o1 Hk [A B]. rewrite Z.add_0_l, <- Nat2Z.inj_add. destruct H1 as [_ H1].
        rewrite (rdiN _ _ _ (out last k)) by (apply H1; lia). cbn [bind]. rewrite wrN by lia.
        eexists. split; [reflexivity|]. rewrite upd_length. split; [exact A|]. intros i Hi.
        destruct (Nat.eq_dec i k) as [->|Nk].
        - rewrite nth_error_upd_same by lia. reflexivity.
        - rewrite nth_error_upd_other by lia. apply B. lia. }
      rewrite E2. cbn [bind]. eexists. eexists. split; [reflexivity|]. cbn [learning_rate weights layer_size neuron_output].
      split; [reflexivity|]. split; [reflexivity|]. split; [reflexivity|]. split; [exact H1|].
      apply nth_error_ext. intros n. destruct (Nat.lt_ge_cases n (size last)) as [Ln|Ln].
      - rewrite H2 by exact Ln. symmetry. rewrite nth_error_map. rewrite (nth_error_nth' _ 0%nat) by (rewrite seq_length; lia).
        rewrite seq_nth by lia. reflexivity.
      - rewrite (proj2 (nth_error_None o' n)) by lia. symmetry. apply nth_error_None. rewrite map_length, seq_length. lia.
    Qed.
  End Forward.

  (** ** backpropagate *)
  Lemma total_ext : forall f g n, (forall k, (k < n)%nat -> f k = g k) -> total O f n = total O g n.
  Proof. intros f g n H. induction n as [|n IH]; [reflexivity|]. cbn [total]. rewrite IH, H by auto. reflexivity. Qed.

  Section Layer.
    Variable rate : num O.
    Variable l : nat.
    Hypothesis Hl : (S l < length sz)%nat.
    Variable no0 : list (option (num O)).
    Variable ws0 : list (num O).
    Hypothesis Ln : length no0 = t.
    Hypothesis Lw : length ws0 = t.
    Variable d o : nat -> num O.
    Hypothesis Hd : forall i, (i < size (S l))%nat -> nth_error no0 (nb (S l) + i) = Some (Some (d i)).
    Hypothesis Ho : forall i, (i < size l)%nat -> nth_error no0 (nb l + i) = Some (Some (o i)).
    Local Notation s := (size l).
    Local Notation nx := (size (S l)).
    Definition inp (j : nat) : num O := if Nat.ltb j s then o j else nofZ O 1.
    Definition derr (i : nat) : num O :=
      nmul O (total O (fun j => nmul O (d j) (nth (place (S l) j i) ws0 zero)) nx) (deriv (inp i)).
    Definition moved (i j : nat) : num O :=
      nadd O (nth (place (S l) i j) ws0 zero) (nmul O (nmul O (nopp O rate) (inp j)) (d i)).

    (** Invariant before column [n], rows below [r] of that column being done. *)
    Definition wsI (n r : nat) (ws : list (num O)) : Prop :=
      length ws = t /\
      (forall i j, coord (S l) i j -> nth (place (S l) i j) ws zero =
         if (Nat.ltb j n || (Nat.eqb j n && Nat.ltb i r))%bool then moved i j else nth (place (S l) i j) ws0 zero) /\
      (forall k, (k < wb (S l) \/ wb (S (S l)) <= k)%nat -> nth_error ws k = nth_error ws0 k).
    Definition noI (n : nat) (no : list (option (num O))) : Prop :=
      length no = t /\
      (forall i, (i < s)%nat -> nth_error no (nb l + i) = Some (Some (if Nat.ltb i n then derr i else o i))) /\
      (forall k, (k < nb l \/ nb (S l) <= k)%nat -> nth_error no k = nth_error no0 k).

    Lemma coordS : forall i j, (i < nx)%nat -> (j <= s)%nat -> coord (S l) i j.
    Proof. clear. intros i j H1 H2. split; [apply le_n_S, Nat.le_0_l|]. split; [exact H1|exact H2]. Qed.

    Lemma backward_ok :
      exists no ws, backward_layer O deriv rate (Z.of_nat s) (Z.of_nat nx) (Z.of_nat (nb l)) (Z.of_nat (wb (S l))) (no0, ws0) = Ok (no, ws) /\
        noI (S s) no /\ wsI (S s) 0 ws.
    Proof.
      unfold backward_layer. replace (Z.to_nat (Z.of_nat s + 1)) with (S s) by lia. rewrite Nat2Z.id.
      match goal with |- context [forZ _ 0 ?f _] =>
        destruct (forN _ (fun n st => exists no ws, st = (no, ws) /\ noI n no /\ wsI n 0 ws) f (S s) 0 (no0, ws0)) as [st [E [no [ws [-> [A B]]]]]] end.
      - exists no0, ws0. split; [reflexivity|]. split.
        + split; [exact Ln|]. split; [|reflexivity]. intros i Hi. cbn. now apply Ho.
        + split; [exact Lw|]. split; [|reflexivity]. intros i j C. replace (Nat.ltb i 0) with false by reflexivity.
          replace (Nat.ltb j 0) with false by reflexivity. now rewrite andb_false_r.
      - intros n st Hn [no [ws [-> [[N1 [N2 N3]] [W1 [W2 W3]]]]]]. rewrite Z.add_0_l.
        assert (Dn : forall i, (i < nx)%nat -> rdi no (Z.of_nat (nb l) + Z.of_nat s + Z.of_nat i) = Ok (d i)).
        { intros i Hi. replace (Z.of_nat (nb l) + Z.of_nat s + Z.of_nat i) with (Z.of_nat (nb (S l) + i)) by (cbn [neurons_before]; lia).
          apply rdiN. rewrite N3 by lia. now apply Hd. }
        assert (Wp : forall i, Z.of_nat (wb (S l)) + Z.of_nat i * (Z.of_nat s + 1) + Z.of_nat n = Z.of_nat (place (S l) i n))
          by (intros i; unfold Perceptron_Spec.place; cbn [pred]; lia).
        assert (Cur : (if Z.of_nat n <? Z.of_nat s then rdi no (Z.of_nat (nb l) + Z.of_nat n) else Ok (nofZ O 1)) = Ok (inp n)).
        { unfold inp. destruct (Nat.ltb_spec n s) as [H|H].
          - rewrite (proj2 (Z.ltb_lt _ _)) by lia. rewrite <- Nat2Z.inj_add. apply rdiN. rewrite N2 by exact H.
            now rewrite Nat.ltb_irrefl.
          - rewrite (proj2 (Z.ltb_ge _ _)) by lia. reflexivity. }
        rewrite Cur. cbn [bind]. clear Cur.
        match goal with |- context [bind (forZ nx 0 ?f (nofZ O 0))] =>
          destruct (forN _ (fun k err => err = total O (fun j => nmul O (d j) (nth (place (S l) j n) ws0 zero)) k) f nx 0 (nofZ O 0)) as [err [E1 E2]] end.
        { reflexivity. }
        { intros k err Hk ->. rewrite Z.add_0_l, Dn by exact Hk. cbn [bind]. rewrite Wp.
          pose proof (ws_range (S l) k n Hl (coordS k n Hk ltac:(lia))) as Rw.
          rewrite (rdN_nth _ _ _ zero) by lia. cbn [bind]. rewrite W2 by (apply coordS; lia).
          rewrite Nat.ltb_irrefl. replace (Nat.ltb k 0) with false by reflexivity. rewrite andb_false_r. cbn [orb].
          eexists. split; [reflexivity|]. reflexivity. }
        rewrite E1. cbn [bind].
        match goal with |- context [bind (forZ nx 0 ?f ws)] =>
          destruct (forN _ (fun r ws => wsI n r ws) f nx 0 ws) as [ws' [E3 W']] end.
        { split; [exact W1|]. split; [exact W2|exact W3]. }
        { intros r ws1 Hr [V1 [V2 V3]]. rewrite Z.add_0_l, Dn by exact Hr. cbn [bind]. rewrite Wp.
          pose proof (ws_range (S l) r n Hl (coordS r n Hr ltac:(lia))) as Rw.
          rewrite (rdN_nth _ _ _ zero) by lia. cbn [bind]. rewrite V2 by (apply coordS; lia).
          rewrite !Nat.ltb_irrefl, andb_false_r. cbn [orb]. rewrite wrN by lia.
          eexists. split; [reflexivity|]. split; [now rewrite upd_length|]. split.
          - intros i j C. destruct (Nat.eq_dec (place (S l) i j) (place (S l) r n)) as [Ep|Np].
            + destruct (place_inj size _ _ _ _ _ _ C (coordS r n Hr ltac:(lia)) Ep) as [_ [-> ->]].
              rewrite Nat.ltb_irrefl, Nat.eqb_refl. rewrite (proj2 (Nat.ltb_lt r (S r))) by lia. cbn [orb andb].
              apply nth_error_nth. apply nth_error_upd_same. lia.
            + assert (En : nth (place (S l) i j) (upd ws1 (place (S l) r n) (nadd O (nth (place (S l) r n) ws0 zero)
                 (nmul O (nmul O (nopp O rate) (inp n)) (d r)))) zero = nth (place (S l) i j) ws1 zero).
              { pose proof (ws_range (S l) i j Hl C) as Ri. apply nth_error_nth. rewrite nth_error_upd_other by congruence.
                apply nth_error_nth'. lia. }
              rewrite En, V2 by exact C. replace (Nat.eqb j n && Nat.ltb i (S r))%bool with (Nat.eqb j n && Nat.ltb i r)%bool; [reflexivity|].
              destruct (Nat.eqb_spec j n) as [->|Nj]; [|reflexivity]. cbn [andb].
              assert (i <> r) by congruence.
              destruct (Nat.ltb_spec i r), (Nat.ltb_spec i (S r)); try reflexivity; lia.
          - intros k Hk. rewrite nth_error_upd_other; [now apply V3|].
            pose proof (place_range size _ _ _ (coordS r n Hr ltac:(lia))). lia. }
        rewrite E3. cbn [bind].
        assert (Wn : wsI (S n) 0 ws').
        { destruct W' as [V1 [V2 V3]]. split; [exact V1|]. split; [|exact V3]. intros i j C. rewrite V2 by exact C.
          destruct C as [_ [Ci _]]. rewrite (proj2 (Nat.ltb_lt i nx)) by exact Ci.
          replace (Nat.ltb i 0) with false by reflexivity. rewrite andb_true_r, andb_false_r, orb_false_r.
          destruct (Nat.ltb_spec j n), (Nat.eqb_spec j n), (Nat.ltb_spec j (S n)); try reflexivity; lia. }
        destruct (Z.ltb_spec (Z.of_nat n) (Z.of_nat s)) as [H|H].
        + rewrite <- Nat2Z.inj_add. pose proof (no_range l n ltac:(lia) ltac:(lia)) as Rn. rewrite wrN by lia. cbn [bind].
          eexists. split; [reflexivity|]. eexists. eexists. split; [reflexivity|]. split; [|exact Wn].
          split; [now rewrite upd_length|]. split.
          * intros i Hi. destruct (Nat.eq_dec i n) as [->|Nn].
            -- rewrite nth_error_upd_same by lia. rewrite (proj2 (Nat.ltb_lt n (S n))) by lia. rewrite E2. reflexivity.
            -- rewrite nth_error_upd_other by lia. rewrite N2 by exact Hi.
               replace (Nat.ltb i (S n)) with (Nat.ltb i n); [reflexivity|].
               destruct (Nat.ltb_spec i n), (Nat.ltb_spec i (S n)); try reflexivity; lia.
          * intros k Hk. rewrite nth_error_upd_other; [now apply N3|]. cbn [neurons_before] in Hk. lia.
        + cbn [bind]. eexists. split; [reflexivity|]. eexists. eexists. split; [reflexivity|]. split; [|exact Wn].
          split; [exact N1|]. split; [|exact N3]. intros i Hi. rewrite N2 by exact Hi.
          rewrite (proj2 (Nat.ltb_lt i n)), (proj2 (Nat.ltb_lt i (S n))) by lia. reflexivity.
      - exists no, ws. split; [exact E|]. split; [exact A|exact B].
    Qed.
  End Layer.

  Lemma output_base_ok : forall m l, shaped t m -> (l <= length sz)%nat -> get_output_base O m (Z.of_nat l) = Ok (Z.of_nat (nb l)).
  Proof.
    intros m l Sh Hl. unfold get_output_base. rewrite Nat2Z.id.
    match goal with |- forZ _ _ ?f _ = _ =>
      destruct (forN _ (fun k b => b = Z.of_nat (nb k)) f l 0 0) as [b [E ->]] end; [reflexivity| |exact E].
    intros k b Hk ->. rewrite Z.add_0_l, (rd_size m t k Sh) by lia. cbn [bind].
    eexists. split; [reflexivity|]. cbn [neurons_before]. lia.
  Qed.
  Lemma weight_base_ok : forall m l, shaped t m -> (l <= length sz)%nat -> get_weight_base O m (Z.of_nat l) = Ok (Z.of_nat (wb l)).
  Proof.
    intros m l Sh Hl. unfold get_weight_base. replace (Z.to_nat (Z.of_nat l - 1)) with (l - 1)%nat by lia.
    match goal with |- forZ _ _ ?f _ = _ =>
      destruct (forN _ (fun k b => b = Z.of_nat (wb (S k))) f (l - 1)%nat 1 0) as [b [E B]] end.
    - reflexivity.
    - intros k b Hk ->. replace (1 + Z.of_nat k) with (Z.of_nat (S k)) by lia.
      replace (Z.of_nat (S k) - 1) with (Z.of_nat k) by lia. rewrite (rd_size m t k Sh), (rd_size m t (S k) Sh) by lia.
      cbn [bind]. eexists. split; [reflexivity|]. rewrite (wb_S size (S k)) by lia. cbn [pred]. lia.
    - rewrite E. f_equal. rewrite B. destruct l as [|l]; [reflexivity|]. now replace (S (S l - 1)) with (S l) by lia.
  Qed.

  Section Backward.
    Variable m : mlp.
    Hypothesis Sh : shaped t m.
    Variable x : list (num O).
    Hypothesis Hh : holds m x (length sz) (neuron_output O m).
    Variable e : list (num O).
    Hypothesis He : length e = size last.
    Local Notation w := (weight_at (weights O m)).
    Local Notation xf := (fun i => nth i x zero).
    Local Notation ef := (fun i => nth i e zero).
    Local Notation out := (output O size act w xf).
    Local Notation D := (delta O size act deriv w xf last ef).
    Local Notation rate := (learning_rate O m).
    Local Notation desc := (descended O size act deriv w xf last ef rate).

    (** Layers above [n] have been treated: their errors are stored, and the weights into
        the layers above [n] have moved. *)
    Definition bpI (n : nat) (no : list (option (num O))) (ws : list (num O)) : Prop :=
      length no = t /\ length ws = t /\
      (forall l i, (l < length sz)%nat -> (i < size l)%nat ->
         nth_error no (nb l + i) = Some (Some (if Nat.ltb l n then out l i else D (last - l) i))) /\
      (forall l i j, (l < length sz)%nat -> coord l i j -> nth (place l i j) ws zero = if Nat.ltb n l then desc l i j else w l i j) /\
      (forall k, (wb (length sz) <= k)%nat -> nth_error ws k = nth_error (weights O m) k).

    Lemma errors_ok :
      exists no, output_errors O deriv m (Z.of_nat (size last)) (Z.of_nat (nb last)) e =
          Ok (no, total O (fun i => nmul O (nsub O (out last i) (ef i)) (nsub O (out last i) (ef i))) (size last)) /\
        bpI last no (weights O m).
    Proof.
      pose proof len_pos as Lp. unfold output_errors. rewrite Nat2Z.id.
      match goal with |- context [forZ _ _ ?f _] =>
        destruct (forN _ (fun k (st : list (option (num O)) * num O) => exists no,
          st = (no, total O (fun i => nmul O (nsub O (out last i) (ef i)) (nsub O (out last i) (ef i))) k) /\
          length no = t /\
          (forall l i, (l < length sz)%nat -> (i < size l)%nat ->
            nth_error no (nb l + i) = Some (Some (if (Nat.eqb l last && Nat.ltb i k)%bool then D 0 i else out l i))))
        f (size last) 0 (neuron_output O m, nofZ O 0)) as [st [E [no [-> [A B]]]]] end.
      - exists (neuron_output O m). split; [reflexivity|]. destruct Hh as [H1 H2]. split; [exact H1|].
        intros l i Hl Hi. replace (Nat.ltb i 0) with false by reflexivity. rewrite andb_false_r. now apply H2.
      - intros k st Hk [no [-> [A B]]]. rewrite Z.add_0_l, <- Nat2Z.inj_add.
        assert (Rk : rdi no (Z.of_nat (nb last + k)) = Ok (out last k)).
        { apply rdiN. rewrite B by lia. now rewrite Nat.eqb_refl, Nat.ltb_irrefl. }
        rewrite Rk. cbn [bind]. rewrite (rdN_nth _ _ _ zero) by lia. cbn [bind].
        pose proof (no_range last k ltac:(lia) Hk) as Rn. rewrite wrN by lia. cbn [bind].
        eexists. split; [reflexivity|]. eexists. split; [reflexivity|]. split; [now rewrite upd_length|].
        intros l i Hl Hi. destruct (Nat.eq_dec (nb l + i) (nb last + k)) as [Ep|Np].
        + apply nb_inj in Ep; try lia. destruct Ep as [-> ->]. rewrite nth_error_upd_same by lia.
          rewrite Nat.eqb_refl, (proj2 (Nat.ltb_lt k (S k))) by lia. reflexivity.
        + rewrite nth_error_upd_other by congruence. rewrite B by auto. f_equal. f_equal.
          destruct (Nat.eqb_spec l last) as [->|Nl]; [|reflexivity]. cbn [andb].
          assert (i <> k) by congruence. destruct (Nat.ltb_spec i k), (Nat.ltb_spec i (S k)); try reflexivity; lia.
      - exists no. split; [exact E|]. split; [exact A|]. split; [apply Sh|]. split; [|split].
        + intros l i Hl Hi. rewrite B by auto. f_equal. f_equal. destruct (Nat.eqb_spec l last) as [->|Nl].
          * rewrite (proj2 (Nat.ltb_lt i _)) by exact Hi. rewrite Nat.ltb_irrefl, Nat.sub_diag. reflexivity.
          * cbn [andb]. rewrite (proj2 (Nat.ltb_lt l last)) by lia. reflexivity.
        + intros l i j Hl C. rewrite (proj2 (Nat.ltb_ge last l)) by lia. reflexivity.
        + reflexivity.
    Qed.

    Variable below : option Z.

    Definition bp_turn := (fun (i : Z) '((no, ws, output_base, weight_base) : list (option (num O)) * list (num O) * Z * Z) =>
         let layer_idx := lc - 2 - i in
         do s <- rd (layer_size O m) layer_idx;
         do p <- size_at O below m (layer_idx - 1);
         do nx <- rd (layer_size O m) (layer_idx + 1);
         let ob := output_base - s in
         let wb := weight_base - (p + 1) * s in
         do (no, ws) <- backward_layer O deriv rate s nx ob (wb + (p + 1) * s) (no, ws);
         Ok (no, ws, ob, wb)).

    Definition stI (k : nat) (st : list (option (num O)) * list (num O) * Z * Z) : Prop :=
      exists no ws v, st = (no, ws, Z.of_nat (nb (last - k)), v) /\ ((k < last)%nat -> v = Z.of_nat (wb (last - k))) /\ bpI (last - k) no ws.

    Lemma turn_bp : forall k st, (k < last)%nat -> (below <> None \/ (S k < last)%nat) -> stI k st ->
      exists st', bp_turn (Z.of_nat k) st = Ok st' /\ stI (S k) st'.
    Proof.
      intros k st Hk Hb [no [ws [v [-> [Hv [B1 [B2 [B3 [B4 B5]]]]]]]]]. specialize (Hv Hk). subst v. unfold bp_turn.
      set (l := (last - S k)%nat). assert (El : (last - k = S l)%nat) by lia. rewrite El in *.
      replace (lc - 2 - Z.of_nat k) with (Z.of_nat l) by lia. cbv zeta.
      rewrite (rd_size m t l Sh) by lia. cbn [bind].
      assert (Hp : exists p, size_at O below m (Z.of_nat l - 1) = Ok p /\ ((1 <= l)%nat -> p = Z.of_nat (size (pred l)))).
      { unfold size_at. destruct (Z.eqb_spec (Z.of_nat l - 1) (-1)) as [E|E].
        - destruct below as [v|].
          + exists v. split; [reflexivity|]. lia.
          + destruct Hb as [Hb|Hb]; [congruence|lia].
        - replace (Z.of_nat l - 1) with (Z.of_nat (pred l)) by lia. rewrite (rd_size m t (pred l) Sh) by lia.
          eexists. split; reflexivity. }
      destruct Hp as [p [Ep Hp]]. rewrite Ep. cbn [bind].
      replace (Z.of_nat l + 1) with (Z.of_nat (S l)) by lia. rewrite (rd_size m t (S l) Sh) by lia. cbn [bind].
      replace (Z.of_nat (nb (S l)) - Z.of_nat (size l)) with (Z.of_nat (nb l)) by (cbn [neurons_before]; lia).
      rewrite Z.sub_add.
      destruct (backward_ok rate l ltac:(lia) no ws B1 B2 (fun i => D (last - S l) i) (fun i => out l i)) as [no' [ws' [E [[N1 [N2 N3]] [W1 [W2 W3]]]]]].
      { intros i Hi. rewrite B3 by lia. now rewrite Nat.ltb_irrefl. }
      { intros i Hi. rewrite B3 by lia. now rewrite (proj2 (Nat.ltb_lt l (S l))) by lia. }
      rewrite E. cbn [bind]. eexists. split; [reflexivity|].
      exists no', ws', (Z.of_nat (wb (S l)) - (p + 1) * Z.of_nat (size l)). fold l.
      split; [reflexivity|]. split.
      { intros H. rewrite Hp by lia. rewrite (wb_S size l) by lia. lia. }
      split; [exact N1|]. split; [exact W1|].
      assert (Dl : forall i, (i < size l)%nat -> derr l ws (fun i => D (last - S l) i) (fun i => out l i) i = D (last - l) i).
      { intros i Hi. replace (last - l)%nat with (S (last - S l)) by lia. cbn [delta]. unfold derr, inp.
        rewrite (proj2 (Nat.ltb_lt i _)) by exact Hi. replace (last - (last - S l))%nat with (S l) by lia.
        replace (last - S (last - S l))%nat with l by lia. f_equal. apply total_ext. intros j Hj.
        rewrite B4 by (try lia; apply coordS; lia). now rewrite Nat.ltb_irrefl. }
      split; [|split].
      - intros l' i Hl' Hi. destruct (Nat.eq_dec l' l) as [->|Nl].
        + rewrite N2 by exact Hi. rewrite (proj2 (Nat.ltb_lt i _)) by lia. now rewrite Nat.ltb_irrefl, Dl.
        + rewrite N3.
          * rewrite B3 by auto. f_equal. f_equal. destruct (Nat.ltb_spec l' (S l)), (Nat.ltb_spec l' l); try reflexivity; lia.
          * destruct (Nat.lt_ge_cases l' l) as [L|G].
            -- left. now apply nb_lt.
            -- right. pose proof (nb_mono size (S l) l' ltac:(lia)). lia.
      - intros l' i j Hl' C. destruct (Nat.eq_dec l' (S l)) as [->|Nl].
        + rewrite W2 by exact C. destruct C as [C1 [C2 C3]]. cbn [pred] in C3.
          rewrite (proj2 (Nat.ltb_lt j _)), (proj2 (Nat.ltb_lt l _)) by lia. cbn [orb]. unfold moved.
          rewrite B4 by (try lia; apply coordS; lia). rewrite Nat.ltb_irrefl. reflexivity.
        + assert (En : nth (place l' i j) ws' zero = nth (place l' i j) ws zero).
          { apply nth_error_nth. rewrite W3.
            - apply nth_error_nth'. pose proof (ws_range l' i j Hl' C). lia.
            - pose proof (place_range size _ _ _ C) as R. destruct (Nat.lt_ge_cases l' (S l)) as [L|G].
              + left. pose proof (wb_mono size (S l') (S l) ltac:(lia)). lia.
              + right. pose proof (wb_mono size (S (S l)) l' ltac:(lia)). lia. }
          rewrite En, B4 by auto. destruct (Nat.ltb_spec (S l) l'), (Nat.ltb_spec l l'); try reflexivity; lia.
      - intros k' Hk'. rewrite W3; [now apply B5|]. right. pose proof (wb_mono size (S (S l)) (length sz) ltac:(lia)). lia.
    Qed.

    Lemma backprop_start : forall R,
      (forall no, bpI last no (weights O m) ->
        (do (no, ws, _, _) <- forZ last 0 bp_turn (no, weights O m, Z.of_nat (nb last), Z.of_nat (wb last));
         Ok (mkMlp O rate ws no (layer_size O m),
             ndiv O (total O (fun i => nmul O (nsub O (out last i) (ef i)) (nsub O (out last i) (ef i))) (size last))
                    (nofZ O (Z.of_nat (size last))))) = R) ->
      backpropagate O lc deriv below m e = R.
    Proof.
      intros R HR. pose proof len_pos as Lp. unfold backpropagate.
      replace (lc - 1) with (Z.of_nat last) by lia. rewrite (output_base_ok m last Sh), (weight_base_ok m last Sh) by lia. cbn [bind].
      rewrite (rd_size m t last Sh) by lia. cbn [bind].
      destruct errors_ok as [no [E B]]. rewrite E. cbn [bind]. rewrite Nat2Z.id. now apply HR.
    Qed.

    Lemma backprop_ok : below <> None ->
      exists m', backpropagate O lc deriv below m e =
          Ok (m', ndiv O (total O (fun i => nmul O (nsub O (out last i) (ef i)) (nsub O (out last i) (ef i))) (size last))
                         (nofZ O (Z.of_nat (size last)))) /\
        shaped t m' /\ learning_rate O m' = rate /\
        (forall l i j, (l < length sz)%nat -> coord l i j -> weight_at (weights O m') l i j = desc l i j) /\
        (forall k, (wb (length sz) <= k)%nat -> nth_error (weights O m') k = nth_error (weights O m) k).
    Proof.
      intros Hb.
      assert (Loop : forall no, bpI last no (weights O m) ->
        exists no' ws' a b, forZ last 0 bp_turn (no, weights O m, Z.of_nat (nb last), Z.of_nat (wb last)) = Ok (no', ws', a, b) /\ bpI 0 no' ws').
      { intros no B. destruct (forN _ stI bp_turn last 0 (no, weights O m, Z.of_nat (nb last), Z.of_nat (wb last))) as [st [E [no' [ws' [v [-> [_ B']]]]]]].
        - exists no, (weights O m), (Z.of_nat (wb last)). rewrite Nat.sub_0_r. split; [reflexivity|]. split; [reflexivity|exact B].
        - intros k st Hk I. rewrite Z.add_0_l. now apply turn_bp; auto.
        - rewrite Nat.sub_diag in *. eauto 8. }
      destruct errors_ok as [no [Eno B]]. destruct (Loop no B) as [no' [ws' [a [b [E B']]]]].
      exists (mkMlp O rate ws' no' (layer_size O m)). split.
      - pose proof len_pos as Lp. unfold backpropagate.
        replace (lc - 1) with (Z.of_nat last) by lia. rewrite (output_base_ok m last Sh), (weight_base_ok m last Sh) by lia. cbn [bind].
        rewrite (rd_size m t last Sh) by lia. cbn [bind]. rewrite Eno. cbn [bind]. rewrite Nat2Z.id.
        fold bp_turn. rewrite E. reflexivity.
      - destruct B' as [B1 [B2 [_ [B4 B5]]]]. split; [split; [apply Sh|split; [exact B2|exact B1]]|].
        split; [reflexivity|]. cbn [weights]. split; [|exact B5].
        intros l i j Hl C. unfold weight_at at 1. rewrite B4 by auto. destruct C as [C1 _]. now rewrite (proj2 (Nat.ltb_lt 0 l)) by lia.
    Qed.

    Lemma backprop_undef : below = None -> (2 <= length sz)%nat -> backpropagate O lc deriv below m e = Undef OutOfBounds.
    Proof.
      intros Hb H2. apply backprop_start. intros no B.
      assert (El : forall st, forZ last 0 bp_turn st = forZ ((last - 1) + 1) 0 bp_turn st)
        by (intros st; now replace (last - 1 + 1)%nat with last by lia).
      rewrite El, forZ_app.
      destruct (forN _ stI bp_turn (last - 1) 0 (no, weights O m, Z.of_nat (nb last), Z.of_nat (wb last))) as [st [E [no' [ws' [v [-> _]]]]]].
      - exists no, (weights O m), (Z.of_nat (wb last)). rewrite Nat.sub_0_r. split; [reflexivity|]. split; [reflexivity|exact B].
      - intros k st Hk I. rewrite Z.add_0_l. apply turn_bp; auto; lia.
      - rewrite E. cbn [bind forZ]. unfold bp_turn at 1. replace (lc - 2 - (0 + Z.of_nat (last - 1))) with (Z.of_nat 0) by lia.
        cbv zeta. rewrite (rd_size m t 0 Sh) by lia. cbn [bind]. unfold size_at. cbn [Z.of_nat Z.sub Z.add Z.opp Z.eqb Pos.eqb Z.pos_sub].
        rewrite Hb. reflexivity.
    Qed.
  End Backward.
End Net.
