(** * Invariants of MC-NN with double features *)
From Coq Require Import ZArith List Bool Lia.
From Verif Require Import CppBase CppFacts NumOps Perceptron_Proofs MCNN_Model MCNN_Spec.
Import ListNotations.
Local Open Scope Z_scope.

Lemma fill_ok : forall A (f : Z -> res A) (g : nat -> A) n, (forall k, (k < n)%nat -> f (Z.of_nat k) = Ok (g k)) ->
  fill (Z.of_nat n) f = Ok (map g (seq 0 n)).
Proof.
  intros A f g n H. unfold fill. rewrite Nat2Z.id.
  destruct (forN _ (fun k l => l = map g (seq 0 k)) (fun i l => do v <- f i; Ok (l ++ [v])) n 0 []) as [l [E ->]]; [reflexivity| |exact E].
  intros k l Hk ->. rewrite Z.add_0_l, H by exact Hk. cbn [bind]. eexists. split; [reflexivity|].
  rewrite seq_S, map_app. reflexivity.
Qed.
Lemma nth_error_map_seq : forall A (g : nat -> A) n k, (k < n)%nat -> nth_error (map g (seq 0 n)) k = Some (g k).
Proof.
  intros A g n k H. rewrite nth_error_map, (nth_error_nth' _ 0%nat) by (rewrite seq_length; lia).
  rewrite seq_nth by lia. reflexivity.
Qed.
Lemma map_nth_seq : forall A (d : A) l, map (fun k => nth k l d) (seq 0 (length l)) = l.
Proof.
  intros A d l. apply nth_error_ext. intros k. destruct (Nat.lt_ge_cases k (length l)) as [H|H].
  - rewrite nth_error_map_seq by exact H. symmetry. now apply nth_error_nth'.
  - rewrite (proj2 (nth_error_None l k)) by lia. apply nth_error_None. rewrite map_length, seq_length. lia.
Qed.

(** Counting. *)
Lemma trues_upd : forall l i b, (i < length l)%nat ->
  (trues (upd l i b) + (if nth i l false then 1 else 0) = trues l + (if b then 1 else 0))%nat.
Proof.
  unfold trues. induction l as [|a l IH]; intros i b H; [cbn in H; lia|]. destruct i as [|i]; cbn [upd nth filter].
  - destruct a, b; cbn [length]; lia.
  - specialize (IH i b ltac:(cbn in H; lia)). destruct a; cbn [length]; lia.
Qed.
Lemma trues_le : forall l, (trues l <= length l)%nat.
Proof. unfold trues. induction l as [|[] l IH]; cbn [filter length]; lia. Qed.
Lemma trues_full : forall l, (forall i, (i < length l)%nat -> nth i l false = true) -> trues l = length l.
Proof.
  unfold trues. induction l as [|a l IH]; intros H; [reflexivity|]. pose proof (H 0%nat ltac:(cbn; lia)) as H0. cbn in H0. subst a.
  cbn [filter length]. f_equal. apply IH. intros i Hi. apply (H (S i)). cbn. lia.
Qed.
Lemma trues_not_full : forall l i, (i < length l)%nat -> nth i l false = false -> (trues l < length l)%nat.
Proof.
  intros l i H E. pose proof (trues_upd l i true H) as U. rewrite E in U. pose proof (trues_le (upd l i true)) as L.
  rewrite upd_length in L. lia.
Qed.
Lemma trues_repeat : forall n, trues (repeat false n) = 0%nat.
Proof. induction n; auto. Qed.
Lemma nth_upd : forall A (l : list A) i j v d, (i < length l)%nat -> nth j (upd l i v) d = if Nat.eqb i j then v else nth j l d.
Proof.
  intros A l i j v d H. destruct (Nat.eqb_spec i j) as [->|N].
  - apply nth_error_nth. now apply nth_error_upd_same.
  - destruct (nth_error l j) as [a|] eqn:E.
    + rewrite (nth_error_nth l _ _ E). apply nth_error_nth. now rewrite nth_error_upd_other by congruence.
    + apply nth_error_None in E. rewrite !nth_overflow; [reflexivity| |rewrite upd_length]; lia.
Qed.

(** Operations with which the clock and its averages are safe for [N] calls. *)
Definition timed (O : ops) (N : Z) : Prop :=
  nadd O (nofZ O (-1)) (nofZ O 1) = nofZ O 0 /\
  (forall a b, 0 <= a -> 0 <= b -> a + b <= N * N -> nadd O (nofZ O a) (nofZ O b) = nofZ O (a + b)) /\
  (forall a n t, 1 <= n <= N -> 0 <= t < N -> 0 <= a <= n * t ->
     exists q, n2int O (ndiv O (nofZ O a) (nofZ O n)) = Ok q /\ 0 <= q <= t).

Section Inv.
  Variable O : ops.
  Variable sq : num O -> num O.
  Variable fc mc : nat.
  Variable ec : Z.
  Hypothesis Hfc : (1 <= fc)%nat.
  Hypothesis Hmc : (1 <= mc)%nat.
  Variable N : Z.
  Hypothesis HN : 1 <= N < 4294967296.
  Hypothesis Ht : timed O N.
  Local Notation T := (fdouble O).
  Local Notation cluster := (cluster O T).
  Local Notation mcnn := (mcnn O T).
  Local Notation FC := (Z.of_nat fc).
  Local Notation MC := (Z.of_nat mc).
  Local Notation n_ := (nofZ O).
  Local Notation point := (list (num O)).
  Local Notation history := (list (point * Z)).
  Local Notation zero := (nofZ O 0).

  Variable thr meth : Z.
  Variable pthr : num O.
  Local Notation slot := (slot O).
  Local Notation live := (live O).
  Local Notation fresh := (fresh O fc).
  Local Notation grown := (grown O fc).
  Local Notation with_error := (with_error O).
  Local Notation dist := (dist O fc).
  Local Notation wantedb := (wantedb O).
  Local Notation dist_at := (dist_at O fc).
  Local Notation var := (var O).
  Local Notation middle := (middle O fc).
  Local Notation lower := (lower O sq fc).
  Local Notation upper := (upper O sq fc).
  Local Notation all_live := (all_live O mc).
  Local Notation put := (put O).
  Local Notation new_at := (new_at O).

  (** The cluster holds the point [p] and then the points [ps], the latter trained with its label. *)
  Definition stats (h : history) (c : cluster) (p : point) (ps : list point) : Prop :=
    length (features_sum O T c) = fc /\ length (features_square_sum O T c) = fc /\
    (forall k, (k < fc)%nat -> coordinate O (features_sum O T c) k = sum_of O p ps k) /\
    (forall k, (k < fc)%nat -> coordinate O (features_square_sum O T c) k = square_of O p ps k) /\
    data_count O T c = Z.of_nat (length ps) + 1 /\
    (forall q, In q ps -> In (q, label O T c) h).
  Definition good (h : history) (c : cluster) : Prop :=
    (exists p ps, length p = fc /\ Forall (fun q => length q = fc) ps /\ stats h c p ps) /\
    In (label O T c) (map snd h) /\
    data_count O T c <= Z.of_nat (length h) /\
    exists a, timestamp_sum O T c = n_ a /\ 0 <= a <= data_count O T c * (Z.of_nat (length h) - 1).


  (** [h] is the history so far; the clock shows [k - 1]. *)
  Definition inv (h : history) (k : Z) (m : mcnn) : Prop :=
    length (clusters O T m) = mc /\ length (active O T m) = mc /\
    timestamp O T m = n_ (k - 1) /\
    error_thr O T m = thr /\ cleaning_method O T m = meth /\ performance_thr O T m = pthr /\
    (forall i, live m i = true -> exists c, slot m i = Some c /\ good h c) /\
    (Z.of_nat (trues (active O T m)) <= count_active_cluster O T m) /\
    (meth <> 1 -> meth <> 2 -> Z.of_nat (trues (active O T m)) = Z.min (count_active_cluster O T m) MC) /\
    (meth <> 0 -> meth <> 1 -> meth <> 2 -> count_active_cluster O T m <= MC).

  Lemma live_lt : forall m i, length (active O T m) = mc -> live m i = true -> (i < mc)%nat.
  Proof.
    intros m i L H. unfold live in H. destruct (Nat.lt_ge_cases i mc) as [H'|H']; [exact H'|].
    rewrite nth_overflow in H by lia. discriminate.
  Qed.
  Lemma rd_live : forall m i, length (active O T m) = mc -> (i < mc)%nat -> rd (active O T m) (Z.of_nat i) = Ok (live m i).
  Proof. intros m i L H. apply rdN_nth. lia. Qed.
  Lemma rdi_slot : forall m i c, slot m i = Some c -> rdi (clusters O T m) (Z.of_nat i) = Ok c.
  Proof.
    intros m i c H. apply rdiN. unfold slot in H. destruct (nth_error _ i) as [[c'|]|] eqn:E; congruence.
  Qed.

  Lemma rd_coord : forall (l : point) k, length l = fc -> (k < fc)%nat -> rd l (Z.of_nat k) = Ok (coordinate O l k).
  Proof. intros l k L H. apply rdN_nth. lia. Qed.
  Lemma coord_map : forall (g : nat -> num O) k, (k < fc)%nat -> coordinate O (map g (seq 0 fc)) k = g k.
  Proof. intros g k H. unfold coordinate. apply nth_error_nth. now apply nth_error_map_seq. Qed.

  Lemma good_more : forall h c q, good h c -> good (h ++ [q]) c.
  Proof.
    intros h c q [[p [ps [Lp [Lq S]]]] [HL [HD [a [HA HB]]]]]. split.
    - exists p, ps. split; [exact Lp|]. split; [exact Lq|]. destruct S as [S1 [S2 [S3 [S4 [S5 S6]]]]].
      repeat (split; [assumption|]). intros q' Hq. apply in_or_app. left. auto.
    - split; [rewrite map_app; apply in_or_app; now left|]. rewrite app_length. cbn [length]. split; [lia|].
      exists a. split; [exact HA|].
      assert (1 <= data_count O T c) by (destruct S as [_ [_ [_ [_ [S5 _]]]]]; lia). nia.
  Qed.

  (** initialize and incorporate *)
  Lemma initialize_ok : forall p lb t e, length p = fc -> initialize O T FC p lb t e = Ok (fresh p lb t e).
  Proof.
    intros p lb t e L. unfold initialize.
    rewrite (fill_ok _ _ (coordinate O p)) by (intros; apply rd_coord; auto). cbn [bind].
    rewrite (fill_ok _ _ (fun k => nmul O (coordinate O p k) (coordinate O p k))); [reflexivity|].
    intros k Hk. change (F T) with (num O) in *. rewrite rd_coord by auto. reflexivity.
  Qed.
  Lemma fresh_good : forall h p lb a e, length p = fc -> In lb (map snd h) -> 0 <= a <= Z.of_nat (length h) - 1 ->
    good h (fresh p lb (n_ a) e).
  Proof.
    intros h p lb a e L Hl Ha. split.
    - exists p, []. split; [exact L|]. split; [constructor|]. unfold stats, fresh.
      cbn [features_sum features_square_sum data_count label length]. rewrite !map_length, seq_length. split; [reflexivity|]. split; [reflexivity|].
      split; [intros k Hk; now rewrite coord_map|]. split; [intros k Hk; now rewrite coord_map|]. split; [lia|intros q []].
    - cbn [fresh label data_count timestamp_sum]. split; [exact Hl|]. split; [lia|]. exists a. split; [reflexivity|lia].
  Qed.

  Lemma incorporate_ok : forall c p t, length (features_sum O T c) = fc -> length (features_square_sum O T c) = fc -> length p = fc ->
    incorporate O T FC c p t = Ok (grown c p t).
  Proof.
    intros c p t L1 L2 L. unfold incorporate. change (F T) with (num O) in *.
    rewrite (fill_ok _ _ (fun k => nadd O (coordinate O (features_sum O T c) k) (coordinate O p k))).
    2:{ intros k Hk. rewrite !rd_coord by auto. reflexivity. }
    cbn [bind].
    rewrite (fill_ok _ _ (fun k => nadd O (coordinate O (features_square_sum O T c) k) (nmul O (coordinate O p k) (coordinate O p k)))); [reflexivity|].
    intros k Hk. rewrite !rd_coord by auto. reflexivity.
  Qed.


  Lemma sum_snoc : forall p ps q k, sum_of O p (ps ++ [q]) k = nadd O (sum_of O p ps k) (coordinate O q k).
  Proof. intros. unfold sum_of. rewrite fold_left_app. reflexivity. Qed.
  Lemma square_snoc : forall p ps q k, square_of O p (ps ++ [q]) k = nadd O (square_of O p ps k) (nmul O (coordinate O q k) (coordinate O q k)).
  Proof. intros. unfold square_of. rewrite fold_left_app. reflexivity. Qed.

  Lemma grown_good : forall h c q, good h c -> length q = fc -> Z.of_nat (length h) < N ->
    good (h ++ [(q, label O T c)]) (grown c q (n_ (Z.of_nat (length h)))).
  Proof.
    intros h c q [[p [ps [Lp [Lq S]]]] [HL [HD [a [HA HB]]]]] Lq' Hn.
    destruct S as [S1 [S2 [S3 [S4 [S5 S6]]]]].
    assert (Du : u32 (data_count O T c + 1) = data_count O T c + 1) by (apply u32_small; lia).
    split.
    - exists p, (ps ++ [q]). split; [exact Lp|]. split; [apply Forall_app; auto|]. unfold stats, grown.
      cbn [features_sum features_square_sum data_count label]. rewrite !map_length, seq_length.
      split; [reflexivity|]. split; [reflexivity|].
      split; [intros k Hk; rewrite coord_map, sum_snoc, S3; auto|].
      split; [intros k Hk; rewrite coord_map, square_snoc, S4; auto|].
      split; [rewrite Du, app_length; cbn [length]; lia|].
      intros q' Hq. apply in_app_or in Hq. destruct Hq as [Hq|[<-|[]]]; apply in_or_app; [left; auto|right; now left].
    - cbn [grown label data_count timestamp_sum]. rewrite map_app, app_length. cbn [map snd length]. rewrite Du.
      split; [apply in_or_app; now left|]. split; [lia|]. exists (a + Z.of_nat (length h)). destruct Ht as [_ [Ta _]].
      rewrite HA, Ta by nia. split; [reflexivity|]. nia.
  Qed.
  Lemma error_good : forall h c d, good h c -> good h (with_error c d).
  Proof. intros h c d H. exact H. Qed.

  (** Distances. *)
  Lemma distance_ok : forall x c, length x = fc -> length (features_sum O T c) = fc ->
    (do ce <- centroid O T FC c; euclidean_distance O T FC x ce) = Ok (dist x c).
  Proof.
    intros x c L Lc. unfold centroid. change (F T) with (num O) in *.
    rewrite (fill_ok _ _ (fun k => ndiv O (coordinate O (features_sum O T c) k) (n_ (data_count O T c)))).
    2:{ intros k Hk. rewrite rd_coord by auto. reflexivity. }
    cbn [bind]. unfold euclidean_distance. rewrite Nat2Z.id.
    match goal with |- forZ _ _ ?f _ = _ =>
      destruct (forN _ (fun n s => s = distance2 O (coordinate O x) (fun k => ndiv O (coordinate O (features_sum O T c) k) (n_ (data_count O T c))) n)
        f fc 0 (n_ 0)) as [s [E ->]] end; [reflexivity| |exact E].
    intros k s Hk ->. rewrite Z.add_0_l. change (F T) with (num O) in *. rewrite rd_coord by auto. cbn [bind].
    rewrite (rdN _ _ _ (ndiv O (coordinate O (features_sum O T c) k) (n_ (data_count O T c)))) by (now apply nth_error_map_seq).
    eexists. split; [reflexivity|]. reflexivity.
  Qed.

  (** The candidates of a scan. *)

  (** The scan as a function. *)
  Fixpoint scanf (ok : nat -> bool) (d : nat -> num O) (n : nat) : Z * num O :=
    match n with
    | Datatypes.O => (-1, n_ 1000000)
    | S n' => let r := scanf ok d n' in if (ok n' && nlt O (d n') (snd r))%bool then (Z.of_nat n', d n') else r
    end.

  Definition readable (h : history) (m : mcnn) : Prop :=
    length (active O T m) = mc /\ forall i, live m i = true -> exists c, slot m i = Some c /\ good h c.

  Lemma loop_ok : forall h m x f, readable h m -> length x = fc ->
    nearest_loop O T FC MC m x f = Ok (scanf (wantedb m f) (dist_at m x) mc).
  Proof.
    intros h m x f [L R] Lx. unfold nearest_loop. rewrite Nat2Z.id.
    match goal with |- forZ _ _ ?b _ = _ =>
      destruct (forN _ (fun n r => r = scanf (wantedb m f) (dist_at m x) n) b mc 0 (-1, n_ 1000000)) as [r [E ->]] end;
      [reflexivity| |exact E].
    intros n [r s] Hn E. rewrite Z.add_0_l, rd_live by auto. cbn [bind scanf]. rewrite <- E. cbn [snd].
    unfold wantedb, dist_at. destruct (live m n) eqn:El; [|cbn [andb]; eauto].
    destruct (R n El) as [c [Sc Gc]]. rewrite (rdi_slot _ _ _ Sc), Sc. cbn [bind andb].
    destruct (f c) eqn:Ef; [|cbn [andb]; eauto]. cbn [andb].
    assert (Lc : length (features_sum O T c) = fc) by (destruct Gc as [[p [ps [_ [_ [S1 _]]]]] _]; exact S1).
    pose proof (distance_ok x c Lx Lc) as D.
    apply bind_inv in D. destruct D as [ce [D1 D2]]. rewrite D1. cbn [bind]. rewrite D2. cbn [bind].
    destruct (nlt O (dist x c) s); eauto.
  Qed.

  Lemma scanf_cases : forall ok d n,
    (fst (scanf ok d n) = -1 /\ snd (scanf ok d n) = n_ 1000000 /\ none_near O n ok d (n_ 1000000)) \/
    (exists i, (i < n)%nat /\ fst (scanf ok d n) = Z.of_nat i /\ ok i = true /\ snd (scanf ok d n) = d i /\
       exists j, (j < n)%nat /\ ok j = true /\ nlt O (d j) (n_ 1000000) = true).
  Proof.
    intros ok d. induction n as [|n IH]; cbn [scanf].
    - left. split; [reflexivity|]. split; [reflexivity|]. intros j Hj. lia.
    - destruct (ok n && nlt O (d n) (snd (scanf ok d n)))%bool eqn:E.
      + apply andb_prop in E. destruct E as [E1 E2]. right. exists n. split; [lia|]. split; [reflexivity|]. split; [exact E1|]. split; [reflexivity|].
        destruct IH as [[_ [I2 _]]|[i [_ [_ [_ [_ [j [Hj J]]]]]]]].
        * rewrite I2 in E2. exists n. split; [lia|]. auto.
        * exists j. split; [lia|exact J].
      + destruct IH as [[I1 [I2 I3]]|[i [Hi [I1 [I2 [I3 [j [Hj J]]]]]]]].
        * left. split; [exact I1|]. split; [exact I2|]. intros j Hj Oj. destruct (Nat.eq_dec j n) as [->|Nj]; [|apply I3; [lia|auto]].
          rewrite Oj, I2 in E. exact E.
        * right. exists i. split; [lia|]. repeat (split; [assumption|]). exists j. split; [lia|auto].
  Qed.

  (** With a transitive order the scan finds the first nearest candidate. *)
  Definition ordered : Prop :=
    (forall a, nlt O a a = false) /\
    (forall a b c, nlt O a b = true -> nlt O b c = true -> nlt O a c = true) /\
    (forall a b c, nle O a b = true -> nlt O b c = true -> nlt O a c = true).
  Lemma scanf_best : ordered -> forall ok d n,
    (fst (scanf ok d n) = -1 /\ none_near O n ok d (n_ 1000000)) \/
    (exists i, fst (scanf ok d n) = Z.of_nat i /\ first_nearest O n ok d (n_ 1000000) i).
  Proof.
    intros [Ir [Tr Tl]] ok d n.
    assert (G : (fst (scanf ok d n) = -1 /\ snd (scanf ok d n) = n_ 1000000 /\ none_near O n ok d (n_ 1000000)) \/
      (exists i, fst (scanf ok d n) = Z.of_nat i /\ snd (scanf ok d n) = d i /\ first_nearest O n ok d (n_ 1000000) i)).
    2:{ destruct G as [[A [B C]]|[i [A [B C]]]]; [left; auto|right; exists i; auto]. }
    induction n as [|n IH]; cbn [scanf].
    - left. split; [reflexivity|]. split; [reflexivity|]. intros j Hj. lia.
    - destruct (ok n && nlt O (d n) (snd (scanf ok d n)))%bool eqn:E.
      + apply andb_prop in E. destruct E as [E1 E2]. right. exists n. split; [reflexivity|]. split; [reflexivity|].
        assert (Before : forall j, (j < n)%nat -> ok j = true -> nlt O (d j) (snd (scanf ok d n)) = false).
        { intros j Hj Oj. destruct IH as [[I1 [I2 I3]]|[i [I1 [I2 [_ [_ [_ [I4 _]]]]]]]]; rewrite I2; auto. }
        split; [lia|]. split; [exact E1|]. split.
        { destruct IH as [[_ [I2 _]]|[i [_ [I2 [_ [_ [I3 _]]]]]]]; rewrite I2 in E2; [exact E2|]. now apply (Tr _ (d i)). }
        split.
        * intros j Hj Oj. destruct (nlt O (d j) (d n)) eqn:C; [|reflexivity]. destruct (Nat.eq_dec j n) as [->|Nj].
          -- rewrite Ir in C. discriminate.
          -- rewrite <- (Before j ltac:(lia) Oj). symmetry. now apply (Tr _ (d n)).
        * intros j Hj Oj. destruct (nle O (d j) (d n)) eqn:C; [|reflexivity].
          rewrite <- (Before j Hj Oj). symmetry. now apply (Tl _ (d n)).
      + destruct IH as [[I1 [I2 I3]]|[i [I1 [I2 [J1 [J2 [J3 [J4 J5]]]]]]]].
        * left. split; [exact I1|]. split; [exact I2|]. intros j Hj Oj. destruct (Nat.eq_dec j n) as [->|Nj]; [|apply I3; [lia|auto]].
          rewrite Oj, I2 in E. exact E.
        * right. exists i. split; [exact I1|]. split; [exact I2|]. split; [lia|]. split; [exact J2|]. split; [exact J3|]. split; [|exact J5].
          intros j Hj Oj. destruct (Nat.eq_dec j n) as [->|Nj]; [|apply J4; [lia|auto]]. rewrite Oj, I2 in E. exact E.
  Qed.

  (** Scans for the lowest participation and the widest feature. *)
  Definition lowest (m : mcnn) (i : nat) : Prop :=
    live m i = true /\
    (ordered -> forall j c c', live m j = true -> slot m j = Some c -> slot m i = Some c' ->
       nlt O (performance O T c (timestamp O T m)) (performance O T c' (timestamp O T m)) = false).
  Lemma lowest_ok : forall h m, readable h m -> (forall i, (i < mc)%nat -> live m i = true) ->
    exists i, (i < mc)%nat /\ get_lowest_participation O T MC m = Ok (Z.of_nat i) /\ lowest m i.
  Proof.
    intros h m [L R] All. unfold get_lowest_participation. rewrite Nat2Z.id.
    set (pf := fun i => match slot m i with Some c => performance O T c (timestamp O T m) | None => n_ 0 end).
    match goal with |- context [forZ _ _ ?b _] =>
      destruct (forN _ (fun n (r : Z * num O) => (n = 0%nat /\ r = (-1, n_ 101)) \/
        exists i, (i < n)%nat /\ r = (Z.of_nat i, pf i) /\ (ordered -> forall j, (j < n)%nat -> nlt O (pf j) (pf i) = false)) b mc 0 (-1, n_ 101)) as [r [E [[Z _]|[i [Hi [-> Best]]]]]] end.
    - left. auto.
    - intros n r Hn IH. rewrite Z.add_0_l. destruct r as [lo lv]. rewrite rd_live by auto. rewrite All by auto. cbn [bind].
      destruct (R n (All n Hn)) as [c [Sc Gc]]. rewrite (rdi_slot _ _ _ Sc). cbn [bind].
      assert (Pn : pf n = performance O T c (timestamp O T m)) by (unfold pf; now rewrite Sc). rewrite <- Pn.
      destruct IH as [[-> Er]|[i [Hi [Er Best]]]]; injection Er as -> ->.
      + cbn [Z.eqb orb Pos.eqb]. eexists. split; [reflexivity|]. right. exists 0%nat. split; [lia|]. split; [reflexivity|].
        intros [Ir _] j Hj. assert (j = 0)%nat by lia. subst. apply Ir.
      + rewrite (proj2 (Z.eqb_neq (Z.of_nat i) (-1))) by lia. cbn [orb]. destruct (nlt O (pf n) (pf i)) eqn:Lt.
        * eexists. split; [reflexivity|]. right. exists n. split; [lia|]. split; [reflexivity|]. intros Or j Hj.
          destruct (Nat.eq_dec j n) as [->|Nj]; [apply Or|]. destruct (nlt O (pf j) (pf n)) eqn:Lj; [|reflexivity].
          rewrite <- (Best Or j ltac:(lia)). symmetry. destruct Or as [_ [Tr _]]. now apply (Tr _ (pf n)).
        * eexists. split; [reflexivity|]. right. exists i. split; [lia|]. split; [reflexivity|]. intros Or j Hj.
          destruct (Nat.eq_dec j n) as [->|Nj]; [exact Lt|]. apply Best; auto. lia.
    - lia.
    - exists i. split; [lia|]. rewrite E. cbn [bind]. split; [reflexivity|]. split; [apply All; lia|].
      intros Or j c c' Lj Sj Si. specialize (Best Or j ltac:(now apply (live_lt m))). unfold pf in Best. now rewrite Sj, Si in Best.
  Qed.

  Definition widest (c : cluster) (k : nat) : Prop :=
    (k < fc)%nat /\ (ordered -> forall j, (j < fc)%nat -> nlt O (var c k) (var c j) = false).
  Lemma widest_ok : forall c, length (features_sum O T c) = fc -> length (features_square_sum O T c) = fc ->
    exists k, widest_feature O T FC c = Ok (Z.of_nat k, var c k) /\ widest c k.
  Proof.
    intros c L1 L2. unfold widest_feature. rewrite Nat2Z.id.
    match goal with |- context [forZ _ _ ?b _] =>
      destruct (forN _ (fun n (r : Z * num O) => (n = 0%nat /\ r = (-1, n_ 0)) \/
        exists i, (i < n)%nat /\ r = (Z.of_nat i, var c i) /\ (ordered -> forall j, (j < n)%nat -> nlt O (var c i) (var c j) = false)) b fc 0 (-1, n_ 0)) as [r [E [[Z _]|[i [Hi [-> Best]]]]]] end.
    - left. auto.
    - intros n r Hn IH. rewrite Z.add_0_l. destruct r as [si hv].
      assert (V : variance O T c (Z.of_nat n) = Ok (var c n)).
      { unfold variance. change (F T) with (num O) in *. rewrite !rd_coord by auto. reflexivity. }
      rewrite V. cbn [bind].
      destruct IH as [[-> Er]|[i [Hi [Er Best]]]]; injection Er as -> ->.
      + cbn [Z.eqb Pos.eqb]. rewrite orb_true_r. eexists. split; [reflexivity|]. right. exists 0%nat. split; [lia|]. split; [reflexivity|].
        intros [Ir _] j Hj. assert (j = 0)%nat by lia. subst. apply Ir.
      + rewrite (proj2 (Z.eqb_neq (Z.of_nat i) (-1))) by lia. rewrite orb_false_r. destruct (nlt O (var c i) (var c n)) eqn:Lt.
        * eexists. split; [reflexivity|]. right. exists n. split; [lia|]. split; [reflexivity|]. intros Or j Hj.
          destruct (Nat.eq_dec j n) as [->|Nj]; [apply Or|]. destruct (nlt O (var c n) (var c j)) eqn:Lj; [|reflexivity].
          rewrite <- (Best Or j ltac:(lia)). symmetry. destruct Or as [_ [Tr _]]. now apply (Tr _ (var c n)).
        * eexists. split; [reflexivity|]. right. exists i. split; [lia|]. split; [reflexivity|]. intros Or j Hj.
          destruct (Nat.eq_dec j n) as [->|Nj]; [exact Lt|]. apply Best; auto. lia.
    - lia.
    - exists i. split; [exact E|]. split; [exact Hi|exact Best].
  Qed.

  (** [split] *)
  Definition after_split (m : mcnn) (ci new k : nat) (c : cluster) (q : Z) : mcnn :=
    mkMcnn O T (upd (upd (clusters O T m) new (Some (fresh (lower c k) (label O T c) (n_ q) (to_int thr)))) ci
                    (Some (fresh (upper c k) (label O T c) (n_ q) (to_int thr))))
      (upd (active O T m) new true) (count_active_cluster O T m + 1) (timestamp O T m)
      (error_thr O T m) (performance_thr O T m) (cleaning_method O T m).


  Lemma split_ok : forall h k m ci c, inv h k m -> live m ci = true -> slot m ci = Some c -> Z.of_nat (length h) <= N ->
    (split O T sq FC MC m (Z.of_nat ci) = Ok m /\ all_live m /\ meth <> 0 /\ meth <> 2) \/
    (exists new kf q, (new < mc)%nat /\ widest c kf /\ 0 <= q <= Z.of_nat (length h) - 1 /\
       ((live m new = false /\ new <> ci) \/ (all_live m /\ (meth = 0 \/ meth = 2) /\ lowest m new)) /\
       split O T sq FC MC m (Z.of_nat ci) = Ok (after_split m ci new kf c q)).
  Proof.
    intros h k m ci c [I1 [I2 [I3 [I4 [I5 [I6 [I7 _]]]]]]] Lci Sci Hn.
    assert (Hci : (ci < mc)%nat) by (now apply (live_lt m)).
    assert (Rm : readable h m) by (split; auto).
    destruct (I7 ci Lci) as [c' [Sc' Gc]]. rewrite Sci in Sc'. injection Sc' as <-.
    destruct Gc as [[p [ps [Lp [Lq [S1 [S2 [_ [_ [S5 _]]]]]]]]] [GL [GD [a [GA GB]]]]].
    assert (After : forall new, (new < mc)%nat ->
      exists kf q, widest c kf /\ 0 <= q <= Z.of_nat (length h) - 1 /\
        (do c <- rdi (clusters O T m) (Z.of_nat ci);
         do (split_index, highest_variance) <- widest_feature O T FC c;
         let deviation := sq highest_variance in
         do mid <- fill FC (fun i => do s <- rd (features_sum O T c) i; favg T s (data_count O T c));
         do x <- rd mid split_index;
         do lo <- fsubd T x deviation;
         do hi <- faddd T x deviation;
         do cluster_minus <- wr mid split_index lo;
         do cluster_plus <- wr mid split_index hi;
         do old_time <- n2int O (ndiv O (timestamp_sum O T c) (n_ (data_count O T c)));
         do c1 <- initialize O T FC cluster_minus (label O T c) (n_ old_time) (to_int (error_thr O T m));
         do m <- set_cluster O T m (Z.of_nat new) c1;
         do c <- rdi (clusters O T m) (Z.of_nat ci);
         do c2 <- initialize O T FC cluster_plus (label O T c) (n_ old_time) (to_int (error_thr O T m));
         do m <- set_cluster O T m (Z.of_nat ci) c2;
         do m <- set_active O T m (Z.of_nat new) true;
         Ok (one_more O T m)) = Ok (after_split m ci new kf c q)).
    { intros new Hnew. rewrite (rdi_slot _ _ _ Sci). cbn [bind].
      destruct (widest_ok c S1 S2) as [kf [Ek Wk]]. rewrite Ek. cbn [bind]. cbv zeta.
      rewrite (fill_ok _ _ (fun k => ndiv O (coordinate O (features_sum O T c) k) (n_ (data_count O T c)))).
      2:{ intros j Hj. change (F T) with (num O) in *. rewrite rd_coord by auto. reflexivity. }
      fold (middle c). cbn [bind]. destruct Wk as [Wk Wb].
      assert (Lm : length (middle c) = fc) by (unfold middle; now rewrite map_length, seq_length).
      change (F T) with (num O) in *. rewrite (rd_coord (middle c) kf Lm Wk). cbn [bind fsubd faddd fdouble].
      rewrite !wrN by lia. cbn [bind].
      destruct Ht as [_ [_ Td]]. destruct (Td a (data_count O T c) (Z.of_nat (length h) - 1)) as [q [Eq Hq]]; [lia|lia|lia|].
      rewrite GA, Eq. cbn [bind]. fold (lower c kf) (upper c kf).
      rewrite initialize_ok by (unfold lower; now rewrite upd_length). cbn [bind].
      unfold set_cluster at 1. rewrite wrN by lia. cbn [bind clusters].
      set (m1 := mkMcnn _ _ _ _ _ _ _ _ _).
      assert (Lb : exists c', slot m1 ci = Some c' /\ label O T c' = label O T c).
      { unfold slot, m1. cbn [clusters]. destruct (Nat.eq_dec new ci) as [->|Nn].
        - rewrite nth_error_upd_same by lia. eexists. split; reflexivity.
        - rewrite nth_error_upd_other by exact Nn. fold (slot m ci). exists c. split; [exact Sci|reflexivity]. }
      destruct Lb as [c' [Sc' Lc']].
      change (upd (clusters O T m) new (Some (fresh (lower c kf) (label O T c) (n_ q) (to_int (error_thr O T m))))) with (clusters O T m1).
      rewrite (rdi_slot m1 ci c' Sc'). cbn [bind]. rewrite Lc'.
      rewrite initialize_ok by (unfold upper; now rewrite upd_length). cbn [bind].
      unfold set_cluster. rewrite wrN by (unfold m1; cbn [clusters]; rewrite upd_length; lia). cbn [bind].
      unfold set_active. cbn [active m1]. rewrite wrN by lia. cbn [bind].
      exists kf, q. split; [split; auto|]. split; [exact Hq|]. unfold after_split, one_more, m1. cbn. rewrite I4. reflexivity. }
    unfold split. rewrite Nat2Z.id.
    assert (Body : forall j, (j < mc)%nat -> (do a <- rd (active O T m) (Z.of_nat j); Ok (if negb a && negb (Z.of_nat j =? Z.of_nat ci) then Some (Z.of_nat j) else None)) =
       Ok (if negb (live m j) && negb (Z.of_nat j =? Z.of_nat ci) then Some (Z.of_nat j) else None)).
    { intros j Hj. rewrite rd_live by auto. reflexivity. }
    match goal with |- context [findZ mc 0 ?b] => destruct (findZ_total _ b mc 0) as [[E En]|[kk [r [Hk [Eb [_ E]]]]]] end.
    - intros j Hj. replace j with (Z.of_nat (Z.to_nat j)) by lia. eexists. apply Body. lia.
    - rewrite E. cbn [bind].
      assert (All : all_live m).
      { intros j Hj. specialize (En (Z.of_nat j) ltac:(lia)). cbv beta in En. rewrite (Body j Hj) in En.
        destruct (live m j) eqn:Lj; [reflexivity|]. destruct (Z.eqb_spec (Z.of_nat j) (Z.of_nat ci)) as [Ej|_]; [|discriminate En].
        assert (j = ci) by lia. subst. congruence. }
      rewrite I5. destruct ((meth =? 0) || (meth =? 2)) eqn:Em.
      + destruct (lowest_ok h m Rm All) as [new [Hnew [El Lw]]]. rewrite El. cbn [bind].
        destruct (After new Hnew) as [kf [q [Wk [Hq Ea]]]]. right. exists new, kf, q.
        split; [exact Hnew|]. split; [exact Wk|]. split; [exact Hq|]. split; [|exact Ea].
        right. split; [exact All|]. split; [|exact Lw]. apply orb_prop in Em. destruct Em as [Em|Em]; apply Z.eqb_eq in Em; auto.
      + left. split; [reflexivity|]. split; [exact All|]. apply orb_false_elim in Em. destruct Em as [E1 E2].
        apply Z.eqb_neq in E1, E2. auto.
    - rewrite E. cbn [bind]. set (j := Z.to_nat kk). assert (Ej : kk = Z.of_nat j) by lia. cbv beta in Eb. rewrite Ej in Eb.
      rewrite Body in Eb by lia. destruct (live m j) eqn:Lj; [discriminate Eb|]. cbn [negb andb] in Eb.
      destruct (Z.eqb_spec (Z.of_nat j) (Z.of_nat ci)) as [|Nj]; [discriminate Eb|]. cbn [negb] in Eb.
      assert (Er : r = Z.of_nat j) by congruence. subst r.
      destruct (After j ltac:(lia)) as [kf [q [Wk [Hq Ea]]]]. right. exists j, kf, q.
      split; [lia|]. split; [exact Wk|]. split; [exact Hq|]. split; [|exact Ea]. left. split; [exact Lj|lia].
  Qed.

  Lemma slot_upd : forall cs act ct ts e p cm i c j, (i < length cs)%nat ->
    slot (mkMcnn O T (upd cs i (Some c)) act ct ts e p cm) j = if Nat.eqb i j then Some c else slot (mkMcnn O T cs act ct ts e p cm) j.
  Proof.
    intros. unfold slot. cbn [clusters]. destruct (Nat.eqb_spec i j) as [->|Nj].
    - now rewrite nth_error_upd_same.
    - now rewrite nth_error_upd_other.
  Qed.

  Lemma split_inv : forall h k m ci new kf c q, inv h k m -> (ci < mc)%nat -> (new < mc)%nat ->
    slot m ci = Some c -> In (label O T c) (map snd h) -> live m ci = true -> 0 <= q <= Z.of_nat (length h) - 1 ->
    ((live m new = false /\ new <> ci) \/ (all_live m /\ (meth = 0 \/ meth = 2) /\ lowest m new)) ->
    inv h k (after_split m ci new kf c q) /\ forall j, live m j = true -> live (after_split m ci new kf c q) j = true.
  Proof.
    intros h k m ci new kf c q [I1 [I2 [I3 [I4 [I5 [I6 [I7 [I8 [I9 I10]]]]]]]]] Hci Hnew Sc Lc Lci Hq Case.
    assert (Lm : length (middle c) = fc) by (unfold middle; now rewrite map_length, seq_length).
    assert (Live : forall j, live (after_split m ci new kf c q) j = if Nat.eqb new j then true else live m j).
    { intros j. unfold live, after_split. cbn [active]. apply nth_upd. lia. }
    split.
    - unfold inv. cbn [after_split clusters active timestamp error_thr cleaning_method performance_thr count_active_cluster].
      rewrite !upd_length. repeat (split; [assumption|]). split; [|].
      + intros j Hj. rewrite Live in Hj.
        unfold after_split. rewrite slot_upd by (rewrite upd_length; lia). destruct (Nat.eqb_spec ci j) as [->|Nj].
        * eexists. split; [reflexivity|]. apply fresh_good; auto. unfold upper. now rewrite upd_length.
        * rewrite slot_upd by lia. destruct (Nat.eqb_spec new j) as [->|Nn].
          -- eexists. split; [reflexivity|]. apply fresh_good; auto. unfold lower. now rewrite upd_length.
          -- now apply I7.
      + pose proof (trues_upd (active O T m) new true ltac:(lia)) as U. unfold live in Case.
        destruct Case as [[Cn Nn]|[All [Cm _]]].
        * rewrite Cn in U. pose proof (trues_not_full (active O T m) new ltac:(lia) Cn) as Nf.
          split; [lia|]. split; [intros; specialize (I9 ltac:(assumption) ltac:(assumption)); lia|].
          intros A1 A2 A3. specialize (I10 A1 A2 A3). specialize (I9 A2 A3). lia.
        * rewrite (All new Hnew : nth new (active O T m) false = true) in U.
          assert (Full : trues (active O T m) = mc) by (rewrite trues_full; [exact I2|]; intros i Hi; apply All; lia).
          split; [lia|]. split; [intros; specialize (I9 ltac:(assumption) ltac:(assumption)); lia|]. lia.
    - intros j Hj. rewrite Live. destruct (Nat.eqb new j); auto.
  Qed.

  (** Changing one cluster. *)
  Lemma put_ok : forall m i c, (i < length (clusters O T m))%nat -> set_cluster O T m (Z.of_nat i) c = Ok (put m i c).
  Proof. intros m i c H. unfold set_cluster. rewrite wrN by exact H. reflexivity. Qed.
  Lemma slot_put : forall m i c j, (i < length (clusters O T m))%nat -> slot (put m i c) j = if Nat.eqb i j then Some c else slot m j.
  Proof. intros m i c j H. unfold put. rewrite slot_upd by exact H. destruct m; reflexivity. Qed.
  Lemma put_inv : forall h h' k m i c, inv h k m -> (i < mc)%nat -> (forall c, good h c -> good h' c) -> good h' c -> inv h' k (put m i c).
  Proof.
    intros h h' k m i c [I1 [I2 [I3 [I4 [I5 [I6 [I7 I8]]]]]]] Hi Up G. unfold inv.
    cbn [put clusters active timestamp error_thr cleaning_method performance_thr count_active_cluster]. rewrite upd_length.
    repeat (split; [assumption|]). split; [|exact I8]. intros j Hj. rewrite slot_put by lia. destruct (Nat.eqb_spec i j) as [->|Nj]; [eauto|].
    destruct (I7 j Hj) as [c' [A B]]. exists c'. split; [exact A|now apply Up].
  Qed.
  Lemma inv_more : forall h k m q, inv h k m -> inv (h ++ [q]) k m.
  Proof.
    intros h k m q [I1 [I2 [I3 [I4 [I5 [I6 [I7 I8]]]]]]]. repeat (split; [assumption|]). split; [|exact I8].
    intros i Hi. destruct (I7 i Hi) as [c [A B]]. exists c. split; [exact A|now apply good_more].
  Qed.

  (** Cleaning. *)
  Definition weak (m : mcnn) (i : nat) : bool :=
    match slot m i with
    | Some c => (1 <? data_count O T c) && nlt O (performance O T c (timestamp O T m)) (performance_thr O T m)
    | None => false
    end.
  Lemma trues_sub : forall l l', length l = length l' -> (forall i, nth i l' false = true -> nth i l false = true) -> (trues l' <= trues l)%nat.
  Proof.
    induction l as [|a l IH]; intros [|a' l'] L H; try discriminate; [cbn; lia|].
    specialize (IH l' ltac:(cbn in L; lia) (fun i => H (S i))). pose proof (H 0%nat) as H0. cbn in H0. unfold trues in *. cbn [filter].
    destruct a', a; cbn [length]; lia.
  Qed.
  Lemma clean_ok : forall h k m, inv h k m -> (meth = 1 \/ meth = 2) ->
    exists m', clean_low_performance_clusters O T MC m = Ok m' /\ inv h k m' /\ clusters O T m' = clusters O T m /\
      (forall i, live m' i = live m i && negb (weak m i)) /\ count_active_cluster O T m' = count_active_cluster O T m.
  Proof.
    intros h k m [I1 [I2 [I3 [I4 [I5 [I6 [I7 [I8 [I9 I10]]]]]]]]] Hm. unfold clean_low_performance_clusters. rewrite Nat2Z.id.
    match goal with |- context [forZ _ _ ?b _] =>
      destruct (forN _ (fun n (m' : mcnn) => exists act, m' = mkMcnn O T (clusters O T m) act (count_active_cluster O T m) (timestamp O T m)
           (error_thr O T m) (performance_thr O T m) (cleaning_method O T m) /\ length act = mc /\
           forall i, nth i act false = live m i && negb (Nat.ltb i n && weak m i)) b mc 0 m) as [m' [E [act [-> [La H]]]]] end.
    - exists (active O T m). split; [destruct m; reflexivity|]. split; [exact I2|]. intros i.
      replace (Nat.ltb i 0) with false by reflexivity. cbn [andb negb]. now rewrite andb_true_r.
    - intros n m' Hn [act [-> [La H]]]. rewrite Z.add_0_l. cbn [active clusters timestamp performance_thr].
      rewrite (rdN_nth _ _ _ false) by lia. cbn [bind]. rewrite H, Nat.ltb_irrefl. cbn [andb negb]. rewrite andb_true_r.
      assert (Same : forall i, i <> n -> Nat.ltb i (S n) = Nat.ltb i n).
      { intros i Ni. destruct (Nat.ltb_spec i n), (Nat.ltb_spec i (S n)); try reflexivity; lia. }
      destruct (live m n) eqn:Ln.
      + destruct (I7 n Ln) as [c [Sc _]]. rewrite (rdi_slot _ _ _ Sc). cbn [bind].
        assert (Wn : weak m n = ((1 <? data_count O T c) && nlt O (performance O T c (timestamp O T m)) (performance_thr O T m)))
          by (unfold weak; now rewrite Sc).
        rewrite <- Wn. destruct (weak m n) eqn:W.
        * unfold set_active. cbn [active]. rewrite wrN by lia. cbn [bind]. eexists. split; [reflexivity|].
          eexists. split; [reflexivity|]. rewrite upd_length. split; [exact La|]. intros i. rewrite nth_upd by lia.
          destruct (Nat.eqb_spec n i) as [<-|Ni].
          -- rewrite (proj2 (Nat.ltb_lt n (S n))) by lia. rewrite W. cbn. now rewrite andb_false_r.
          -- rewrite Same by congruence. apply H.
        * eexists. split; [reflexivity|]. eexists. split; [reflexivity|]. split; [exact La|]. intros i. rewrite H.
          destruct (Nat.eq_dec i n) as [->|Ni]; [|now rewrite Same]. now rewrite W, !andb_false_r.
      + eexists. split; [reflexivity|]. eexists. split; [reflexivity|]. split; [exact La|]. intros i. rewrite H.
        destruct (Nat.eq_dec i n) as [->|Ni]; [|now rewrite Same]. now rewrite Ln.
    - exists (mkMcnn O T (clusters O T m) act (count_active_cluster O T m) (timestamp O T m) (error_thr O T m) (performance_thr O T m) (cleaning_method O T m)).
      split; [exact E|].
      assert (Lv : forall i, nth i act false = live m i && negb (weak m i)).
      { intros i. rewrite H. destruct (Nat.ltb_spec i mc) as [Hi|Hi]; [reflexivity|]. cbn [andb negb].
        unfold live. rewrite nth_overflow by lia. reflexivity. }
      split; [|split; [reflexivity|split; [exact Lv|reflexivity]]].
      unfold inv. cbn [clusters active timestamp error_thr cleaning_method performance_thr count_active_cluster].
      repeat (split; [assumption|]). split; [|split; [|lia]].
      + intros i Hi. unfold live in Hi. cbn [active] in Hi. rewrite Lv in Hi. apply andb_prop in Hi. destruct Hi as [Hi _].
        destruct (I7 i Hi) as [c [A B]]. exists c. split; [exact A|exact B].
      + pose proof (trues_sub (active O T m) act ltac:(lia)) as Sub.
        assert (trues act <= trues (active O T m))%nat; [|lia]. apply Sub. intros i Hi. rewrite Lv in Hi. now apply andb_prop in Hi.
  Qed.

  (** The two nearest clusters. *)
  Lemma nearest_ok : forall h m x lb, readable h m -> length x = fc ->
    exists n w, find_nearest_with_class O T FC MC m x lb = Ok (n, w) /\
      (w = -1 \/
       exists i j ci cj, n = Z.of_nat i /\ w = Z.of_nat j /\ live m i = true /\ live m j = true /\
         slot m i = Some ci /\ slot m j = Some cj /\ label O T cj = lb).
  Proof.
    intros h m x lb R Lx. unfold find_nearest_with_class, find_nearest. rewrite (loop_ok h m x _ R Lx). cbn [bind].
    set (f1 := fun _ : cluster => true). set (f2 := fun c : cluster => label O T c =? lb).
    pose proof (scanf_cases (wantedb m f1) (dist_at m x) mc) as C1. destruct (scanf (wantedb m f1) (dist_at m x) mc) as [n d1]. cbn [fst snd] in C1.
    assert (Wl : forall f i, wantedb m f i = true -> live m i = true /\ exists c, slot m i = Some c /\ f c = true).
    { intros f i W. unfold wantedb in W. apply andb_prop in W. destruct W as [W1 W2]. split; [exact W1|].
      destruct (slot m i) as [c|]; [|discriminate]. eauto. }
    destruct C1 as [[N1 [N2 N3]]|[i [Hi [N1 [N2 _]]]]]; subst n.
    - rewrite (proj2 (Z.leb_gt 0 (-1))) by lia. cbn [bind]. rewrite (loop_ok h m x _ R Lx). cbn [bind]. fold f2.
      pose proof (scanf_cases (wantedb m f2) (dist_at m x) mc) as C2. destruct (scanf (wantedb m f2) (dist_at m x) mc) as [w d2]. cbn [fst snd] in C2.
      destruct C2 as [[M1 _]|[j [_ [_ [_ [_ [j' [Hj [J1 J2]]]]]]]]].
      + subst w. destruct (neq O d2 d1); eexists; eexists; (split; [reflexivity|now left]).
      + exfalso. assert (W : wantedb m f1 j' = true).
        { destruct (Wl _ _ J1) as [A [c [B _]]]. unfold wantedb. now rewrite A, B. }
        rewrite (N3 j' Hj W) in J2. discriminate.
    - destruct (Wl _ _ N2) as [A1 [ci [A2 _]]]. rewrite (proj2 (Z.leb_le 0 (Z.of_nat i))) by lia.
      rewrite (rdi_slot _ _ _ A2). cbn [bind]. destruct (Z.eqb_spec (label O T ci) lb) as [El|Nl].
      + eexists. eexists. split; [reflexivity|]. right. exists i, i, ci, ci. auto 8.
      + rewrite (loop_ok h m x _ R Lx). cbn [bind]. fold f2.
        pose proof (scanf_cases (wantedb m f2) (dist_at m x) mc) as C2. destruct (scanf (wantedb m f2) (dist_at m x) mc) as [w d2]. cbn [fst snd] in C2.
        destruct C2 as [[M1 _]|[j [Hj [M1 [M2 _]]]]].
        * subst w. destruct (neq O d2 d1); eexists; eexists; (split; [reflexivity|now left]).
        * subst w. destruct (Wl _ _ M2) as [B1 [cj [B2 B3]]]. unfold f2 in B3. apply Z.eqb_eq in B3.
          destruct (neq O d2 d1); eexists; eexists; (split; [reflexivity|right]).
          -- exists j, j, cj, cj. auto 8.
          -- exists i, j, ci, cj. auto 8.
  Qed.

  Lemma train_ok : forall h m x lb, inv h (Z.of_nat (length h)) m -> Z.of_nat (length h) < N -> length x = fc ->
    exists m' b, train O T sq FC MC m x lb = Ok (m', b) /\
      inv (h ++ [(x, lb)]) (Z.of_nat (length h) + 1) m' /\
      (b = false -> meth <> 0 /\ meth <> 2 /\ all_live m' /\ clusters O T m' = clusters O T m /\
         count_active_cluster O T m' = count_active_cluster O T m /\
         (forall i, live m' i = live m i && negb ((meth =? 1) && weak m i))).
  Proof.
    intros h m x lb I Hn Lx. unfold train.
    assert (Cm : cleaning_method O T m = meth) by apply I. rewrite Cm.
    assert (Cl : exists m0, (if (meth =? 1) || (meth =? 2) then clean_low_performance_clusters O T MC m else Ok m) = Ok m0 /\
      inv h (Z.of_nat (length h)) m0 /\ clusters O T m0 = clusters O T m /\ count_active_cluster O T m0 = count_active_cluster O T m /\
      (forall i, live m0 i = live m i && negb (((meth =? 1) || (meth =? 2)) && weak m i))).
    { destruct ((meth =? 1) || (meth =? 2)) eqn:Em.
      - destruct (clean_ok h _ m I) as [m' [A [B [C [D E]]]]].
        + apply orb_prop in Em. destruct Em as [Em|Em]; apply Z.eqb_eq in Em; auto.
        + exists m'. auto.
      - exists m. split; [reflexivity|]. split; [exact I|]. split; [reflexivity|]. split; [reflexivity|]. intros i. cbn. now rewrite andb_true_r. }
    destruct Cl as [m0 [E0 [I0 [Cs0 [Ct0 Lv0]]]]]. rewrite E0. cbn [bind]. cbv zeta. clear E0 I Cm.
    set (m1 := tick O T m0).
    assert (I1 : inv h (Z.of_nat (length h) + 1) m1).
    { destruct I0 as [J1 [J2 [J3 J4]]]. unfold inv, m1, tick. cbn [clusters active timestamp error_thr cleaning_method performance_thr count_active_cluster].
      split; [exact J1|]. split; [exact J2|]. split; [|exact J4]. rewrite J3. destruct Ht as [T1 [T2 _]].
      destruct (Z.eq_dec (Z.of_nat (length h)) 0) as [Eh|Nh].
      - rewrite Eh. cbn [Z.sub Z.add Z.opp]. exact T1.
      - rewrite T2 by nia. f_equal. lia. }
    set (h' := h ++ [(x, lb)]).
    assert (Lh : Z.of_nat (length h') = Z.of_nat (length h) + 1) by (unfold h'; rewrite app_length; cbn; lia).
    assert (Up : forall c, good h c -> good h' c) by (intros; now apply good_more).
    assert (Hlb : In lb (map snd h')) by (unfold h'; rewrite map_app; apply in_or_app; right; now left).
    pose proof I1 as Iv. destruct Iv as [J1 [J2 [J3 [J4 [J5 [J6 [J7 [J8 [J9 J10]]]]]]]]].
    assert (R1 : readable h m1) by (split; auto).
    destruct (nearest_ok h m1 x lb R1 Lx) as [n [w [En Hw]]]. rewrite En. cbn [bind].
    assert (T1 : timestamp O T m1 = n_ (Z.of_nat (length h))) by (rewrite J3; f_equal; lia).
    destruct Hw as [->|[i [j [ci [cj [-> [-> [Li [Lj [Si [Sj Lb]]]]]]]]]]].
    - (* no cluster of this class *)
      rewrite (proj2 (Z.ltb_lt (-1) 0)) by lia. rewrite Nat2Z.id.
      assert (Body : forall j, (j < mc)%nat -> (do a <- rd (active O T m1) (Z.of_nat j); Ok (if a then None else Some (Z.of_nat j))) =
         Ok (if live m1 j then None else Some (Z.of_nat j))) by (intros j Hj; rewrite rd_live by auto; reflexivity).
      match goal with |- context [findZ mc 0 ?b] => destruct (findZ_total _ b mc 0) as [[E Ea]|[kk [r [Hk [Eb [_ E]]]]]] end.
      + intros j Hj. replace j with (Z.of_nat (Z.to_nat j)) by lia. eexists. apply Body. lia.
      + rewrite E. cbn [bind].
        assert (All : all_live m1).
        { intros j Hj. specialize (Ea (Z.of_nat j) ltac:(lia)). cbv beta in Ea. rewrite (Body j Hj) in Ea. destruct (live m1 j); [reflexivity|discriminate]. }
        rewrite J5. destruct ((meth =? 0) || (meth =? 2)) eqn:Em.
        * destruct (lowest_ok h m1 R1 All) as [new [Hnew [El _]]]. rewrite El. cbn [bind].
          destruct (J7 new (All new Hnew)) as [c [Sc _]]. rewrite (rdi_slot _ _ _ Sc). cbn [bind].
          rewrite initialize_ok by exact Lx. cbn [bind]. rewrite put_ok by lia. cbn [bind].
          eexists. exists true. split; [reflexivity|]. split; [|discriminate].
          apply (put_inv h); auto. rewrite T1. apply fresh_good; auto. lia.
        * exists m1, false. split; [reflexivity|]. split; [apply inv_more; exact I1|]. intros _.
          apply orb_false_elim in Em. destruct Em as [E1 E2]. rewrite E2 in Lv0. rewrite orb_false_r in Lv0.
          apply Z.eqb_neq in E1, E2. repeat (split; [assumption|]). exact Lv0.
      + rewrite E. cbn [bind]. set (j := Z.to_nat kk). assert (Ej : kk = Z.of_nat j) by lia. cbv beta in Eb. rewrite Ej in Eb.
        rewrite Body in Eb by lia. destruct (live m1 j) eqn:Lj; [discriminate Eb|].
        assert (Er : r = Z.of_nat j) by congruence. subst r.
        unfold set_active. rewrite wrN by lia. cbn [bind timestamp error_thr].
        rewrite initialize_ok by exact Lx. cbn [bind]. rewrite put_ok by (cbn [clusters one_more]; lia). cbn [bind].
        eexists. exists true. split; [reflexivity|]. split; [|discriminate].
        set (c0 := fresh x lb (timestamp O T m1) (to_int (error_thr O T m1))).
        assert (G0 : good h' c0) by (unfold c0; rewrite T1; apply fresh_good; auto; lia).
        unfold inv, put, one_more. cbn [clusters active timestamp error_thr cleaning_method performance_thr count_active_cluster].
        rewrite !upd_length. repeat (split; [assumption|]). split.
        * intros i Hi. unfold live in Hi. cbn [active] in Hi. rewrite nth_upd in Hi by lia. rewrite slot_upd by lia.
          destruct (Nat.eqb_spec j i) as [->|Ni]; [eauto|]. destruct (J7 i Hi) as [c [A B]]. exists c. split; [exact A|auto].
        * pose proof (trues_upd (active O T m1) j true ltac:(lia)) as U.
          assert (Lj' : nth j (active O T m1) false = false) by exact Lj. rewrite Lj' in U.
          pose proof (trues_not_full (active O T m1) j ltac:(lia) Lj) as Nf.
          split; [lia|]. split; [intros; specialize (J9 ltac:(assumption) ltac:(assumption)); lia|].
          intros A1 A2 A3. specialize (J10 A1 A2 A3). specialize (J9 A2 A3). lia.
    - (* a cluster of this class *)
      assert (Hi : (i < mc)%nat) by (now apply (live_lt m1)). assert (Hj : (j < mc)%nat) by (now apply (live_lt m1)).
      rewrite (proj2 (Z.ltb_ge (Z.of_nat j) 0)) by lia.
      destruct (J7 i Li) as [ci' [Si' Gi]]. rewrite Si in Si'. injection Si' as <-.
      destruct (J7 j Lj) as [cj' [Sj' Gj]]. rewrite Sj in Sj'. injection Sj' as <-.
      assert (Lens : forall c, good h c -> length (features_sum O T c) = fc /\ length (features_square_sum O T c) = fc).
      { intros c [[p [ps [_ [_ [A [B _]]]]]] _]. auto. }
      destruct (Z.eqb_spec (Z.of_nat i) (Z.of_nat j)) as [Eij|Nij].
      + assert (i = j) by lia. subst j. rewrite Si in Sj. injection Sj as <-.
        unfold add_error. rewrite (rdi_slot _ _ _ Si). cbn [bind]. fold (with_error ci 1). rewrite put_ok by lia. cbn [bind].
        unfold incorporate_at. rewrite (rdi_slot (put m1 i (with_error ci 1)) i (with_error ci 1)) by (rewrite slot_put by lia; now rewrite Nat.eqb_refl).
        cbn [bind put timestamp]. rewrite incorporate_ok by (try exact Lx; apply (Lens (with_error ci 1)); apply error_good; exact Gi).
        cbn [bind]. rewrite put_ok by (unfold put; cbn [clusters]; rewrite upd_length; lia). cbn [bind].
        eexists. exists true. split; [reflexivity|]. split; [|discriminate].
        apply (put_inv h); auto.
        * apply (put_inv h); auto.
        * rewrite T1. unfold h'. rewrite <- Lb. change (label O T ci) with (label O T (with_error ci 1)). apply grown_good; auto.
      + assert (Nij' : i <> j) by lia.
        unfold add_error at 1. rewrite (rdi_slot _ _ _ Si). cbn [bind]. fold (with_error ci (-1)). rewrite put_ok by lia. cbn [bind].
        set (m2 := put m1 i (with_error ci (-1))).
        assert (C2 : length (clusters O T m2) = mc) by (unfold m2, put; cbn [clusters]; rewrite upd_length; lia).
        assert (S2 : slot m2 j = Some cj) by (unfold m2; rewrite slot_put by lia; rewrite (proj2 (Nat.eqb_neq i j)) by exact Nij'; exact Sj).
        unfold add_error at 1. rewrite (rdi_slot _ _ _ S2). cbn [bind]. fold (with_error cj (-1)). rewrite put_ok by lia. cbn [bind].
        set (m3 := put m2 j (with_error cj (-1))).
        assert (C3 : length (clusters O T m3) = mc) by (unfold m3, put; cbn [clusters]; rewrite upd_length; lia).
        unfold incorporate_at. rewrite (rdi_slot m3 j (with_error cj (-1))) by (unfold m3; rewrite slot_put by lia; now rewrite Nat.eqb_refl).
        cbn [bind]. replace (timestamp O T m3) with (timestamp O T m1) by reflexivity.
        rewrite incorporate_ok by (try exact Lx; apply (Lens (with_error cj (-1))); apply error_good; exact Gj).
        cbn [bind]. rewrite put_ok by lia. cbn [bind].
        set (c4 := grown (with_error cj (-1)) x (timestamp O T m1)). set (m4 := put m3 j c4).
        assert (G4 : good h' c4).
        { unfold c4. rewrite T1. unfold h'. rewrite <- Lb. change (label O T cj) with (label O T (with_error cj (-1))). apply grown_good; auto. }
        assert (I4 : inv h' (Z.of_nat (length h) + 1) m4).
        { apply (put_inv h); auto. apply (put_inv h); auto. apply (put_inv h); auto. }
        assert (S4j : slot m4 j = Some c4) by (unfold m4; rewrite slot_put by lia; now rewrite Nat.eqb_refl).
        assert (L4 : forall a, live m4 a = live m1 a) by reflexivity.
        rewrite (rdi_slot _ _ _ S4j). cbn [bind].
        assert (St : exists m5, (if error_count O T c4 <=? 0 then split O T sq FC MC m4 (Z.of_nat j) else Ok m4) = Ok m5 /\
          inv h' (Z.of_nat (length h) + 1) m5 /\ forall a, live m4 a = true -> live m5 a = true).
        { destruct (error_count O T c4 <=? 0); [|exists m4; auto].
          destruct (split_ok h' _ m4 j c4 I4 Lj S4j ltac:(lia)) as [[A _]|[new [kf [q [Hnew [_ [Hq [Cs A]]]]]]]].
          - exists m4. auto.
          - destruct (split_inv h' _ m4 j new kf c4 q I4 Hj Hnew S4j ltac:(apply G4) Lj Hq Cs) as [B C]. eauto. }
        destruct St as [m5 [E5 [I5 L5]]]. rewrite E5. cbn [bind].
        assert (Li5 : live m5 i = true) by (apply L5; rewrite L4; exact Li).
        pose proof I5 as K. destruct K as [_ [_ [_ [_ [_ [_ [K7 _]]]]]]]. destruct (K7 i Li5) as [c5 [S5 G5]].
        rewrite (rdi_slot _ _ _ S5). cbn [bind].
        assert (St : exists m6, (if error_count O T c5 <=? 0 then split O T sq FC MC m5 (Z.of_nat i) else Ok m5) = Ok m6 /\
          inv h' (Z.of_nat (length h) + 1) m6).
        { destruct (error_count O T c5 <=? 0); [|exists m5; auto].
          destruct (split_ok h' _ m5 i c5 I5 Li5 S5 ltac:(lia)) as [[A _]|[new [kf [q [Hnew [_ [Hq [Cs A]]]]]]]].
          - exists m5. auto.
          - destruct (split_inv h' _ m5 i new kf c5 q I5 Hi Hnew S5 ltac:(apply G5) Li5 Hq Cs) as [B C]. eauto. }
        destruct St as [m6 [E6 I6]]. rewrite E6. cbn [bind]. exists m6, true. split; [reflexivity|]. split; [exact I6|discriminate].
  Qed.

  (** predict *)
  Lemma predict_ok : forall h m x, readable h m -> length x = fc ->
    exists r, predict O T FC MC ec m x = Ok r /\
      let s := scanf (wantedb m (fun _ => true)) (dist_at m x) mc in
      ((fst s = -1 /\ r = ec) \/ exists i c, fst s = Z.of_nat i /\ live m i = true /\ slot m i = Some c /\ r = label O T c).
  Proof.
    intros h m x R Lx. unfold predict, find_nearest. rewrite (loop_ok h m x _ R Lx). cbn [bind].
    pose proof (scanf_cases (wantedb m (fun _ => true)) (dist_at m x) mc) as C. cbv zeta.
    destruct (scanf (wantedb m (fun _ => true)) (dist_at m x) mc) as [n d]. cbn [fst snd] in *.
    destruct C as [[N1 _]|[i [Hi [N1 [N2 _]]]]]; subst n.
    - rewrite (proj2 (Z.ltb_lt (-1) 0)) by lia. exists ec. auto.
    - rewrite (proj2 (Z.ltb_ge (Z.of_nat i) 0)) by lia. rewrite (proj2 (Z.ltb_lt (Z.of_nat i) MC)) by lia. cbn [assertb bind].
      unfold wantedb in N2. apply andb_prop in N2. destruct N2 as [A1 A2]. destruct (slot m i) as [c|] eqn:Sc; [|discriminate].
      rewrite (rdi_slot _ _ _ Sc). cbn [bind]. exists (label O T c). split; [reflexivity|]. right. eauto 8.
  Qed.

  Lemma init_inv : inv [] 0 (mcnn_init O T MC thr meth pthr).
  Proof.
    unfold inv, mcnn_init. cbn [clusters active timestamp error_thr cleaning_method performance_thr count_active_cluster].
    rewrite Nat2Z.id, !repeat_length. repeat (split; [reflexivity|]). split.
    - intros i Hi. unfold live in Hi. cbn [active] in Hi. exfalso.
      destruct (Nat.lt_ge_cases i mc) as [L|L].
      + rewrite nth_repeat in Hi. discriminate.
      + rewrite nth_overflow in Hi by (rewrite repeat_length; lia). discriminate.
    - rewrite trues_repeat. split; [cbn; lia|]. split; lia.
  Qed.

  (** A history of trainings. *)
  Local Notation trains := (trains O T sq FC MC).
  Lemma trains_ok : forall h h0 m, inv h0 (Z.of_nat (length h0)) m -> Z.of_nat (length (h0 ++ h)) <= N ->
    Forall (fun p => length (fst p) = fc) h ->
    exists m' bs, trains m h = Ok (m', bs) /\ inv (h0 ++ h) (Z.of_nat (length (h0 ++ h))) m' /\ length bs = length h.
  Proof.
    induction h as [|[x lb] h IH]; intros h0 m I Hn Fh.
    - exists m, []. rewrite app_nil_r. auto.
    - inversion Fh as [|? ? Fx Fr]; subst. cbn [fst] in Fx. rewrite app_length in Hn. cbn [length] in Hn.
      destruct (train_ok h0 m x lb I ltac:(lia) Fx) as [m1 [b [E [I1 _]]]]. cbn [trains]. rewrite E. cbn [bind].
      destruct (IH (h0 ++ [(x, lb)]) m1) as [m2 [bs [E2 [I2 L2]]]]; [| |exact Fr|].
      + rewrite app_length. cbn [length]. replace (Z.of_nat (length h0 + 1)) with (Z.of_nat (length h0) + 1) by lia. exact I1.
      + rewrite !app_length. cbn [length]. lia.
      + rewrite E2. cbn [bind]. exists m2, (b :: bs). rewrite <- app_assoc in I2. cbn [app length] in *. auto.
  Qed.

  (** ** One training call, case by case *)
  Definition comparable : Prop :=
    (forall a b c, neq O b a = true -> nlt O c b = true -> nlt O c a = true) /\
    (forall a b c, nlt O a c = true -> nlt O b c = true -> nlt O a b = false -> nlt O b a = false -> neq O b a = true).
  Definition anyc : cluster -> bool := fun _ => true.
  Definition ofc (lb : Z) : cluster -> bool := fun c => label O T c =? lb.
  Local Notation nearest_of m x f := (first_nearest O mc (wantedb m f) (dist_at m x) (n_ 1000000)).

  Lemma wanted_live : forall m f i, wantedb m f i = true -> live m i = true /\ exists c, slot m i = Some c /\ f c = true.
  Proof.
    intros m f i W. unfold wantedb in W. apply andb_prop in W. destruct W as [W1 W2]. split; [exact W1|].
    destruct (slot m i) as [c|]; [|discriminate]. eauto.
  Qed.
  Lemma wanted_any : forall m f i, wantedb m f i = true -> wantedb m anyc i = true.
  Proof. intros m f i W. destruct (wanted_live _ _ _ W) as [A [c [B _]]]. unfold wantedb. now rewrite A, B. Qed.

  Lemma scanf_best2 : ordered -> forall ok d n,
    (fst (scanf ok d n) = -1 /\ none_near O n ok d (n_ 1000000)) \/
    (exists i, fst (scanf ok d n) = Z.of_nat i /\ snd (scanf ok d n) = d i /\ first_nearest O n ok d (n_ 1000000) i).
  Proof.
    intros Or ok d n. destruct (scanf_best Or ok d n) as [L|[i [A B]]]; [left; exact L|right].
    exists i. split; [exact A|]. split; [|exact B].
    destruct (scanf_cases ok d n) as [[C _]|[i' [_ [C [_ [D _]]]]]]; [rewrite A in C; lia|].
    rewrite A in C. apply Nat2Z.inj in C. now subst.
  Qed.

  Lemma nearest_spec : ordered -> comparable -> forall h m x lb, readable h m -> length x = fc ->
    exists n w, find_nearest_with_class O T FC MC m x lb = Ok (n, w) /\
      ((w = -1 /\ none_near O mc (wantedb m (ofc lb)) (dist_at m x) (n_ 1000000)) \/
       (exists j, n = Z.of_nat j /\ w = Z.of_nat j /\ nearest_of m x (ofc lb) j /\
          forall i, live m i = true -> nlt O (dist_at m x i) (dist_at m x j) = false) \/
       (exists i j, n = Z.of_nat i /\ w = Z.of_nat j /\ nearest_of m x anyc i /\ nearest_of m x (ofc lb) j /\
          nlt O (dist_at m x i) (dist_at m x j) = true)).
  Proof.
    intros Or [Cq Ct] h m x lb R Lx. unfold find_nearest_with_class, find_nearest. rewrite !(loop_ok h m x _ R Lx). cbn [bind].
    fold anyc. fold (ofc lb).
    pose proof (scanf_best2 Or (wantedb m anyc) (dist_at m x) mc) as C1.
    destruct (scanf (wantedb m anyc) (dist_at m x) mc) as [n d1]. cbn [fst snd] in C1.
    pose proof (scanf_best2 Or (wantedb m (ofc lb)) (dist_at m x) mc) as C2.
    destruct (scanf (wantedb m (ofc lb)) (dist_at m x) mc) as [w d2]. cbn [fst snd] in C2.
    assert (Any : forall i, live m i = true -> wantedb m anyc i = true /\ (i < mc)%nat).
    { intros i Li. destruct R as [RL R]. destruct (R i Li) as [c [Sc _]]. unfold wantedb. rewrite Li, Sc. split; [reflexivity|now apply (live_lt m)]. }
    destruct C1 as [[-> N1]|[i [-> [-> F1]]]].
    - rewrite (proj2 (Z.leb_gt 0 (-1))) by lia. cbn [bind].
      destruct C2 as [[-> N2]|[j [-> [-> F2]]]].
      + destruct (neq O d2 d1); eexists; eexists; (split; [reflexivity|left; auto]).
      + exfalso. destruct F2 as [J1 [J2 [J3 _]]]. rewrite (N1 j J1 (wanted_any _ _ _ J2)) in J3. discriminate.
    - pose proof F1 as F1'. destruct F1' as [I1 [I2 [I3 [I4 I5]]]]. destruct (wanted_live _ _ _ I2) as [Li [ci [Si _]]].
      rewrite (proj2 (Z.leb_le 0 (Z.of_nat i))) by lia. rewrite (rdi_slot _ _ _ Si). cbn [bind].
      destruct (Z.eqb_spec (label O T ci) lb) as [El|Nl].
      + eexists. eexists. split; [reflexivity|]. right. left. exists i. split; [reflexivity|]. split; [reflexivity|]. split.
        * split; [exact I1|]. split; [unfold wantedb, ofc; rewrite Li, Si; now apply Z.eqb_eq|]. split; [exact I3|].
          split; intros a Ha Wa; [apply I4; auto|apply I5; auto]; now apply (wanted_any _ (ofc lb)).
        * intros a La. destruct (Any a La). now apply I4.
      + destruct C2 as [[-> N2]|[j [-> [-> F2]]]].
        * destruct (neq O d2 (dist_at m x i)); eexists; eexists; (split; [reflexivity|left; auto]).
        * pose proof F2 as F2'. destruct F2' as [J1 [J2 [J3 [J4 J5]]]].
          destruct (neq O (dist_at m x j) (dist_at m x i)) eqn:Eq.
          -- eexists. eexists. split; [reflexivity|]. right. left. exists j. split; [reflexivity|]. split; [reflexivity|]. split; [exact F2|].
             intros a La. destruct (Any a La) as [Wa Ha]. destruct (nlt O (dist_at m x a) (dist_at m x j)) eqn:Lt; [|reflexivity].
             pose proof (Cq _ _ _ Eq Lt) as Cq'. rewrite I4 in Cq' by auto. discriminate.
          -- eexists. eexists. split; [reflexivity|]. right. right. exists i, j. repeat (split; [auto; fail|]).
             destruct (nlt O (dist_at m x i) (dist_at m x j)) eqn:Lt; [auto|].
             rewrite (Ct _ _ _ I3 J3 Lt) in Eq; [discriminate|]. apply I4; [exact J1|]. now apply (wanted_any _ (ofc lb)).
  Qed.

  (** The state in which the clusters are looked up. *)
  Lemma prepared : forall h m, inv h (Z.of_nat (length h)) m -> Z.of_nat (length h) < N ->
    exists m1, (do m <- (if (meth =? 1) || (meth =? 2) then clean_low_performance_clusters O T MC m else Ok m); Ok (tick O T m)) = Ok m1 /\
      inv h (Z.of_nat (length h) + 1) m1 /\ clusters O T m1 = clusters O T m /\ count_active_cluster O T m1 = count_active_cluster O T m /\
      timestamp O T m1 = n_ (Z.of_nat (length h)) /\
      (forall i, live m1 i = live m i && negb (((meth =? 1) || (meth =? 2)) && weak m i)).
  Proof.
    intros h m I Hn.
    assert (Cl : exists m0, (if (meth =? 1) || (meth =? 2) then clean_low_performance_clusters O T MC m else Ok m) = Ok m0 /\
      inv h (Z.of_nat (length h)) m0 /\ clusters O T m0 = clusters O T m /\ count_active_cluster O T m0 = count_active_cluster O T m /\
      (forall i, live m0 i = live m i && negb (((meth =? 1) || (meth =? 2)) && weak m i))).
    { destruct ((meth =? 1) || (meth =? 2)) eqn:Em.
      - destruct (clean_ok h _ m I) as [m' [A [B [C [D E]]]]].
        + apply orb_prop in Em. destruct Em as [Em|Em]; apply Z.eqb_eq in Em; auto.
        + exists m'. auto.
      - exists m. split; [reflexivity|]. split; [exact I|]. split; [reflexivity|]. split; [reflexivity|]. intros i. cbn. now rewrite andb_true_r. }
    destruct Cl as [m0 [E0 [I0 [Cs0 [Ct0 Lv0]]]]]. rewrite E0. cbn [bind]. exists (tick O T m0). split; [reflexivity|].
    destruct I0 as [J1 [J2 [J3 J4]]].
    assert (Tk : timestamp O T (tick O T m0) = n_ (Z.of_nat (length h))).
    { unfold tick. cbn [timestamp]. rewrite J3. destruct Ht as [T1 [T2 _]].
      destruct (Z.eq_dec (Z.of_nat (length h)) 0) as [Eh|Nh].
      - rewrite Eh. cbn [Z.sub Z.add Z.opp]. exact T1.
      - rewrite T2 by nia. f_equal. lia. }
    split; [|auto]. unfold inv. split; [exact J1|]. split; [exact J2|]. split; [rewrite Tk; f_equal; lia|exact J4].
  Qed.
  Lemma train_prepared : forall m m1 x lb, cleaning_method O T m = meth ->
    (do m <- (if (meth =? 1) || (meth =? 2) then clean_low_performance_clusters O T MC m else Ok m); Ok (tick O T m)) = Ok m1 ->
    train O T sq FC MC m x lb =
      do (nearest, with_class) <- find_nearest_with_class O T FC MC m1 x lb;
      if with_class <? 0 then
        do free <- findZ (Z.to_nat MC) 0 (fun i => do a <- rd (active O T m1) i; Ok (if a then None else Some i));
        match free with
        | Some i =>
            do m <- set_active O T m1 i true;
            do c <- initialize O T FC x lb (timestamp O T m) (to_int (error_thr O T m));
            do m <- set_cluster O T (one_more O T m) i c;
            Ok (m, true)
        | None =>
            if (cleaning_method O T m1 =? 0) || (cleaning_method O T m1 =? 2) then
              do new_idx <- get_lowest_participation O T MC m1;
              do _ <- rdi (clusters O T m1) new_idx;
              do c <- initialize O T FC x lb (timestamp O T m1) (to_int (error_thr O T m1));
              do m <- set_cluster O T m1 new_idx c;
              Ok (m, true)
            else Ok (m1, false)
        end
      else if nearest =? with_class then
        do m <- add_error O T m1 nearest 1;
        do m <- incorporate_at O T FC m nearest x;
        Ok (m, true)
      else
        do m <- add_error O T m1 nearest (-1);
        do m <- add_error O T m with_class (-1);
        do m <- incorporate_at O T FC m with_class x;
        do c <- rdi (clusters O T m) with_class;
        do m <- (if error_count O T c <=? 0 then split O T sq FC MC m with_class else Ok m);
        do c <- rdi (clusters O T m) nearest;
        do m <- (if error_count O T c <=? 0 then split O T sq FC MC m nearest else Ok m);
        Ok (m, true).
  Proof.
    intros m m1 x lb Hm E. unfold train. rewrite Hm. apply bind_inv in E. destruct E as [m0 [E0 E1]]. rewrite E0. cbn [bind].
    replace (tick O T m0) with m1 by congruence. reflexivity.
  Qed.

  (** The table after the call, when no cluster is split. *)
  Lemma step_cases : ordered -> comparable -> forall h m x lb, inv h (Z.of_nat (length h)) m -> Z.of_nat (length h) < N -> length x = fc ->
    exists m1, inv h (Z.of_nat (length h) + 1) m1 /\ clusters O T m1 = clusters O T m /\ timestamp O T m1 = n_ (Z.of_nat (length h)) /\
      count_active_cluster O T m1 = count_active_cluster O T m /\
      (forall i, live m1 i = live m i && negb (((meth =? 1) || (meth =? 2)) && weak m i)) /\
      let t := n_ (Z.of_nat (length h)) in
      let r := train O T sq FC MC m x lb in
      ((none_near O mc (wantedb m1 (ofc lb)) (dist_at m1 x) (n_ 1000000) /\
         ((exists i, (i < mc)%nat /\ live m1 i = false /\ (forall j, (j < i)%nat -> live m1 j = true) /\
             r = Ok (new_at m1 i (fresh x lb t (to_int thr)), true)) \/
          (all_live m1 /\ (meth = 0 \/ meth = 2) /\ exists i, (i < mc)%nat /\ lowest m1 i /\ r = Ok (put m1 i (fresh x lb t (to_int thr)), true)) \/
          (all_live m1 /\ meth <> 0 /\ meth <> 2 /\ r = Ok (m1, false)))) \/
       (exists j cj, nearest_of m1 x (ofc lb) j /\ slot m1 j = Some cj /\
          (forall i, live m1 i = true -> nlt O (dist_at m1 x i) (dist_at m1 x j) = false) /\
          r = Ok (put m1 j (with_error (grown cj x t) 1), true)) \/
       (exists i j ci cj m', nearest_of m1 x anyc i /\ nearest_of m1 x (ofc lb) j /\ slot m1 i = Some ci /\ slot m1 j = Some cj /\ i <> j /\
          nlt O (dist_at m1 x i) (dist_at m1 x j) = true /\
          m' = put (put m1 i (with_error ci (-1))) j (with_error (grown cj x t) (-1)) /\
          inv (h ++ [(x, lb)]) (Z.of_nat (length h) + 1) m' /\
          r = (do m2 <- (if error_count O T cj <=? 1 then split O T sq FC MC m' (Z.of_nat j) else Ok m');
               do c <- rdi (clusters O T m2) (Z.of_nat i);
               do m3 <- (if error_count O T c <=? 0 then split O T sq FC MC m2 (Z.of_nat i) else Ok m2);
               Ok (m3, true)))).
  Proof.
    intros Or Co h m x lb I Hn Lx. destruct (prepared h m I Hn) as [m1 [P [I1 [Cs [Ct [T1 Lv]]]]]].
    exists m1. repeat (split; [assumption|]). cbv zeta. rewrite (train_prepared m m1 x lb ltac:(apply I) P). clear P.
    pose proof I1 as Iv. destruct Iv as [J1 [J2 [J3 [J4 [J5 [J6 [J7 [J8 [J9 J10]]]]]]]]].
    assert (R1 : readable h m1) by (split; auto).
    destruct (nearest_spec Or Co h m1 x lb R1 Lx) as [n [w [En Hw]]]. rewrite En. cbn [bind]. clear En.
    assert (Lens : forall c, good h c -> length (features_sum O T c) = fc /\ length (features_square_sum O T c) = fc).
    { intros c [[p [ps [_ [_ [A [B _]]]]]] _]. auto. }
    destruct Hw as [[-> Nn]|[[j [-> [-> [Fj Hj]]]]|[i [j [-> [-> [Fi [Fj Lt]]]]]]]].
    - left. split; [exact Nn|]. rewrite (proj2 (Z.ltb_lt (-1) 0)) by lia. rewrite Nat2Z.id.
      assert (Body : forall j, (j < mc)%nat -> (do a <- rd (active O T m1) (Z.of_nat j); Ok (if a then None else Some (Z.of_nat j))) =
         Ok (if live m1 j then None else Some (Z.of_nat j))) by (intros j Hj; rewrite rd_live by auto; reflexivity).
      match goal with |- context [findZ mc 0 ?b] => destruct (findZ_total _ b mc 0) as [[E Ea]|[kk [r [Hk [Eb [Bf E]]]]]] end.
      + intros j Hj. replace j with (Z.of_nat (Z.to_nat j)) by lia. eexists. apply Body. lia.
      + right. rewrite E. cbn [bind].
        assert (All : all_live m1).
        { intros j Hj. specialize (Ea (Z.of_nat j) ltac:(lia)). cbv beta in Ea. rewrite (Body j Hj) in Ea. destruct (live m1 j); [reflexivity|discriminate]. }
        rewrite J5. destruct ((meth =? 0) || (meth =? 2)) eqn:Em.
        * left. split; [exact All|]. split; [apply orb_prop in Em; destruct Em as [Em|Em]; apply Z.eqb_eq in Em; auto|].
          destruct (lowest_ok h m1 R1 All) as [new [Hnew [El Lw]]]. rewrite El. cbn [bind].
          destruct (J7 new (All new Hnew)) as [c [Sc _]]. rewrite (rdi_slot _ _ _ Sc). cbn [bind].
          rewrite initialize_ok by exact Lx. cbn [bind]. rewrite put_ok by lia. cbn [bind].
          exists new. split; [exact Hnew|]. split; [exact Lw|]. now rewrite T1, J4.
        * right. apply orb_false_elim in Em. destruct Em as [E1 E2]. apply Z.eqb_neq in E1, E2. auto.
      + left. rewrite E. cbn [bind]. set (j := Z.to_nat kk). assert (Ej : kk = Z.of_nat j) by lia. cbv beta in Eb. rewrite Ej in Eb.
        rewrite Body in Eb by lia. destruct (live m1 j) eqn:Lj; [discriminate Eb|].
        assert (Er : r = Z.of_nat j) by congruence. subst r. exists j. split; [lia|]. split; [exact Lj|]. split.
        { intros a Ha. specialize (Bf (Z.of_nat a) ltac:(lia)). cbv beta in Bf. rewrite Body in Bf by lia. destruct (live m1 a); [reflexivity|discriminate]. }
        unfold set_active. rewrite wrN by lia. cbn [bind timestamp error_thr].
        rewrite initialize_ok by exact Lx. cbn [bind]. rewrite put_ok by (cbn [clusters one_more]; lia). cbn [bind].
        unfold put, one_more, new_at. cbn [clusters active count_active_cluster timestamp error_thr performance_thr cleaning_method]. rewrite T1, J4. reflexivity.
    - right. left. pose proof Fj as Fj'. destruct Fj' as [Hjm [Wj _]]. destruct (wanted_live _ _ _ Wj) as [Lj [cj [Sj _]]].
      exists j, cj. split; [exact Fj|]. split; [exact Sj|]. split; [exact Hj|].
      destruct (J7 j Lj) as [cj' [Sj' Gj]]. rewrite Sj in Sj'. injection Sj' as <-.
      rewrite (proj2 (Z.ltb_ge (Z.of_nat j) 0)) by lia. rewrite Z.eqb_refl.
      unfold add_error. rewrite (rdi_slot _ _ _ Sj). cbn [bind]. fold (with_error cj 1). rewrite put_ok by lia. cbn [bind].
      unfold incorporate_at. rewrite (rdi_slot (put m1 j (with_error cj 1)) j (with_error cj 1)) by (rewrite slot_put by lia; now rewrite Nat.eqb_refl).
      cbn [bind put timestamp]. rewrite incorporate_ok by (try exact Lx; apply (Lens (with_error cj 1)); apply error_good; exact Gj).
      cbn [bind]. rewrite put_ok by (unfold put; cbn [clusters]; rewrite upd_length; lia). cbn [bind].
      unfold put. cbn [clusters active count_active_cluster timestamp error_thr performance_thr cleaning_method]. rewrite upd_upd.
      rewrite T1. reflexivity.
    - right. right. pose proof Fj as Fj'. destruct Fj' as [Hjm [Wj _]]. destruct (wanted_live _ _ _ Wj) as [Lj [cj [Sj Wl]]].
      pose proof Fi as Fi'. destruct Fi' as [Him [Wi _]]. destruct (wanted_live _ _ _ Wi) as [Li [ci [Si _]]].
      assert (Nij : i <> j) by (intros ->; destruct Or as [Ir _]; rewrite Ir in Lt; discriminate).
      unfold ofc in Wl. apply Z.eqb_eq in Wl.
      exists i, j, ci, cj. eexists. split; [exact Fi|]. split; [exact Fj|]. split; [exact Si|]. split; [exact Sj|]. split; [exact Nij|].
      split; [exact Lt|]. split; [reflexivity|].
      destruct (J7 j Lj) as [cj' [Sj' Gj]]. rewrite Sj in Sj'. injection Sj' as <-.
      destruct (J7 i Li) as [ci' [Si' Gi]]. rewrite Si in Si'. injection Si' as <-.
      split.
      { apply (put_inv h); auto.
        - apply (put_inv h); auto.
        - intros; now apply good_more.
        - apply error_good. rewrite <- Wl. apply grown_good; auto. }
      rewrite (proj2 (Z.ltb_ge (Z.of_nat j) 0)) by lia. rewrite (proj2 (Z.eqb_neq (Z.of_nat i) (Z.of_nat j))) by lia.
      unfold add_error at 1. rewrite (rdi_slot _ _ _ Si). cbn [bind]. fold (with_error ci (-1)). rewrite put_ok by lia. cbn [bind].
      set (m2 := put m1 i (with_error ci (-1))).
      assert (C2 : length (clusters O T m2) = mc) by (unfold m2, put; cbn [clusters]; rewrite upd_length; lia).
      assert (S2 : slot m2 j = Some cj) by (unfold m2; rewrite slot_put by lia; rewrite (proj2 (Nat.eqb_neq i j)) by exact Nij; exact Sj).
      unfold add_error at 1. rewrite (rdi_slot _ _ _ S2). cbn [bind]. fold (with_error cj (-1)). rewrite put_ok by lia. cbn [bind].
      unfold incorporate_at. rewrite (rdi_slot (put m2 j (with_error cj (-1))) j (with_error cj (-1))) by (rewrite slot_put by lia; now rewrite Nat.eqb_refl).
      cbn [bind]. replace (timestamp O T (put m2 j (with_error cj (-1)))) with (timestamp O T m1) by reflexivity. rewrite T1.
      rewrite incorporate_ok by (try exact Lx; apply (Lens (with_error cj (-1))); apply error_good; exact Gj).
      cbn [bind]. rewrite put_ok by (unfold put; cbn [clusters]; rewrite upd_length; lia). cbn [bind].
      replace (put (put m2 j (with_error cj (-1))) j (grown (with_error cj (-1)) x (n_ (Z.of_nat (length h)))))
        with (put m2 j (with_error (grown cj x (n_ (Z.of_nat (length h)))) (-1))).
      2:{ unfold put. cbn [clusters active count_active_cluster timestamp error_thr performance_thr cleaning_method]. rewrite upd_upd. reflexivity. }
      set (m4 := put m2 j (with_error (grown cj x (n_ (Z.of_nat (length h)))) (-1))).
      rewrite (rdi_slot m4 j (with_error (grown cj x (n_ (Z.of_nat (length h)))) (-1))) by (unfold m4; rewrite slot_put by lia; now rewrite Nat.eqb_refl).
      cbn [bind with_error error_count grown].
      replace (error_count O T cj + -1 <=? 0) with (error_count O T cj <=? 1); [reflexivity|].
      destruct (Z.leb_spec (error_count O T cj) 1), (Z.leb_spec (error_count O T cj + -1) 0); try reflexivity; lia.
  Qed.

  Lemma reached_inv : forall h m, reached O T sq fc mc thr meth pthr h m -> sized fc h -> Z.of_nat (length h) <= N ->
    inv h (Z.of_nat (length h)) m.
  Proof.
    intros h m [bs E] Fh Hn. destruct (trains_ok h [] _ init_inv Hn Fh) as [m' [bs' [E' [I _]]]].
    cbn [app] in *. assert (m' = m) by congruence. now subst.
  Qed.

  (** A split without eviction keeps the label of every cluster in use. *)
  Lemma split_keeps : forall h k m ci c, inv h k m -> live m ci = true -> slot m ci = Some c -> Z.of_nat (length h) <= N -> meth <> 0 -> meth <> 2 ->
    forall m', split O T sq FC MC m (Z.of_nat ci) = Ok m' ->
    inv h k m' /\
    forall j cj, live m j = true -> slot m j = Some cj -> live m' j = true /\ exists c', slot m' j = Some c' /\ label O T c' = label O T cj.
  Proof.
    intros h k m ci c I Lc Sc Hn M0 M2 m' E. pose proof I as Iv. destruct Iv as [J1 [J2 [_ [_ [_ [_ [J7 _]]]]]]].
    assert (Hci : (ci < mc)%nat) by (now apply (live_lt m)).
    destruct (split_ok h k m ci c I Lc Sc Hn) as [[A _]|[new [kf [q [Hnew [_ [Hq [Cs A]]]]]]]].
    - rewrite A in E. assert (m' = m) by congruence. subst. split; [exact I|]. intros j cj Lj Sj. split; [exact Lj|]. eauto.
    - rewrite A in E. assert (m' = after_split m ci new kf c q) by congruence. subst m'.
      destruct (J7 ci Lc) as [c0 [S0 G0]]. rewrite Sc in S0. injection S0 as <-.
      destruct (split_inv h k m ci new kf c q I Hci Hnew Sc ltac:(apply G0) Lc Hq Cs) as [B C]. split; [exact B|].
      intros j cj Lj Sj. split; [now apply C|]. unfold after_split. rewrite slot_upd by (rewrite upd_length; lia).
      destruct (Nat.eqb_spec ci j) as [->|Nj].
      + eexists. split; [reflexivity|]. cbn [fresh label]. congruence.
      + rewrite slot_upd by lia. destruct Cs as [[Ln _]|[_ [[M|M] _]]]; [|contradiction|contradiction].
        destruct (Nat.eqb_spec new j) as [->|Nn]; [rewrite Lj in Ln; discriminate|]. exists cj. split; [destruct m; exact Sj|reflexivity].
  Qed.
  Lemma train_represents : ordered -> comparable -> forall h m x lb m', inv h (Z.of_nat (length h)) m -> Z.of_nat (length h) < N -> length x = fc ->
    meth <> 0 -> meth <> 2 -> train O T sq FC MC m x lb = Ok (m', true) ->
    exists i c, live m' i = true /\ slot m' i = Some c /\ label O T c = lb.
  Proof.
    intros Or Co h m x lb m' I Hn Lx M0 M2 E.
    destruct (step_cases Or Co h m x lb I Hn Lx) as [m1 [I1 [_ [_ [_ [_ H]]]]]]. cbv zeta in H.
    pose proof I1 as Iv. destruct Iv as [J1 [J2 _]].
    destruct H as [[_ [[i [Hi [_ [_ H]]]]|[[_ [[A|A] _]]|[_ [_ [_ H]]]]]]|[[j [cj [Fj [Sj [_ H]]]]]|[i [j [ci [cj [m2 [Fi [Fj [Si [Sj [Nij [_ [Em [I2 H]]]]]]]]]]]]]]].
    - rewrite H in E. assert (Em : m' = new_at m1 i (fresh x lb (n_ (Z.of_nat (length h))) (to_int thr))) by congruence. subst m'.
      exists i. eexists. unfold new_at. rewrite slot_upd by lia. rewrite Nat.eqb_refl. unfold live. cbn [active]. rewrite nth_upd by lia. rewrite Nat.eqb_refl.
      split; [reflexivity|]. split; reflexivity.
    - contradiction.
    - contradiction.
    - rewrite H in E. discriminate.
    - rewrite H in E. assert (Em : m' = put m1 j (with_error (grown cj x (n_ (Z.of_nat (length h)))) 1)) by congruence. subst m'.
      destruct Fj as [Hj [Wj _]]. destruct (wanted_live _ _ _ Wj) as [Lj [c [Sc Lb]]]. rewrite Sj in Sc. injection Sc as <-.
      exists j. eexists. rewrite slot_put by lia. rewrite Nat.eqb_refl. split; [exact Lj|]. split; [reflexivity|]. cbn [with_error grown label].
      unfold ofc in Lb. now apply Z.eqb_eq in Lb.
    - rewrite H in E. destruct Fj as [Hj [Wj _]]. destruct (wanted_live _ _ _ Wj) as [Lj [c [Sc Lb]]]. rewrite Sj in Sc. injection Sc as <-.
      destruct Fi as [Hi [Wi _]]. destruct (wanted_live _ _ _ Wi) as [Li [c' [_ _]]].
      unfold ofc in Lb. apply Z.eqb_eq in Lb.
      assert (Lh : Z.of_nat (length (h ++ [(x, lb)])) <= N) by (rewrite app_length; cbn [length]; lia).
      assert (L2 : forall a, live m2 a = live m1 a) by (subst m2; reflexivity).
      assert (S2 : slot m2 j = Some (with_error (grown cj x (n_ (Z.of_nat (length h)))) (-1))).
      { subst m2. rewrite slot_put by (cbn [put clusters]; rewrite upd_length; lia). now rewrite Nat.eqb_refl. }
      assert (S2i : slot m2 i = Some (with_error ci (-1))).
      { subst m2. rewrite slot_put by (cbn [put clusters]; rewrite upd_length; lia). rewrite (proj2 (Nat.eqb_neq j i)) by auto.
        rewrite slot_put by lia. now rewrite Nat.eqb_refl. }
      apply bind_inv in E. destruct E as [m3 [E3 E]].
      assert (K3 : inv (h ++ [(x, lb)]) (Z.of_nat (length h) + 1) m3 /\ forall a ca, live m2 a = true -> slot m2 a = Some ca ->
        live m3 a = true /\ exists c', slot m3 a = Some c' /\ label O T c' = label O T ca).
      { destruct (error_count O T cj <=? 1); [|assert (m3 = m2) by congruence; subst m3; split; [exact I2|intros; eauto]].
        apply (split_keeps _ _ m2 j _ I2 ltac:(now rewrite L2) S2 Lh M0 M2 m3 E3). }
      destruct K3 as [I3 K3].
      destruct (K3 j _ ltac:(rewrite L2; exact Lj) S2) as [Lj3 [c3 [Sj3 Lb3]]]. destruct (K3 i _ ltac:(rewrite L2; exact Li) S2i) as [Li3 [c4 [Si3 _]]].
      rewrite (rdi_slot _ _ _ Si3) in E. cbn [bind] in E.
      apply bind_inv in E. destruct E as [m4 [E4 E]]. assert (m4 = m') by congruence. subst m4.
      assert (K4 : inv (h ++ [(x, lb)]) (Z.of_nat (length h) + 1) m' /\ forall a ca, live m3 a = true -> slot m3 a = Some ca ->
        live m' a = true /\ exists c', slot m' a = Some c' /\ label O T c' = label O T ca).
      { destruct (error_count O T c4 <=? 0); [|assert (m3 = m') by congruence; subst m3; split; [exact I3|intros; eauto]].
        apply (split_keeps _ _ m3 i _ I3 Li3 Si3 Lh M0 M2 m' E4). }
      destruct K4 as [_ K4]. destruct (K4 j c3 Lj3 Sj3) as [Lj4 [c5 [Sj5 Lb5]]]. exists j, c5. split; [exact Lj4|]. split; [exact Sj5|].
      rewrite Lb5, Lb3. cbn [with_error grown label]. exact Lb.
  Qed.
End Inv.
