(** * Properties of the MC-NN classifier (src/mc_nn.hpp) *)
From Coq Require Import ZArith List Bool Lia Reals Lra.
From Flocq Require Import Core BinarySingleNaN.
From Verif Require Import CppBase CppFacts Dbl DblFacts NumOps NumFacts Utils_Spec Utils_Proofs.
From Verif Require Import MCNN_Model MCNN_Spec MCNN_Proofs MCNN_Num.
Import ListNotations.
Local Open Scope Z_scope.

Local Notation D := (fdouble dops).
Local Notation RR := (fdouble rops).

Section Safe.
  (** [sq] is any function used as [sqrt]. *)
  Variable sq : dbl -> dbl.
  Variable fc mc : nat.
  Hypothesis Hfc : (1 <= fc)%nat.
  Hypothesis Hmc : (1 <= mc)%nat.
  Variable thr meth : Z.
  Variable pthr : dbl.
  Local Notation FC := (Z.of_nat fc).
  Local Notation MC := (Z.of_nat mc).
  Local Notation reached := (reached dops D sq fc mc thr meth pthr).
  Local Notation init := (mcnn_init dops D MC thr meth pthr).

  Lemma clock : 1 <= 2 ^ 26 < 4294967296.
  Proof. lia. Qed.
  Lemma reached_good : forall h m, reached h m -> sized fc h -> Z.of_nat (length h) <= 2 ^ 26 ->
    inv dops fc mc thr meth pthr h (Z.of_nat (length h)) m.
  Proof. intros. now apply (reached_inv dops sq fc mc Hfc Hmc (2 ^ 26) clock timed_dops). Qed.

  (** ** C31: training is safe *)
  Theorem mcnn_trains_safe : forall h, sized fc h -> Z.of_nat (length h) <= 2 ^ 26 ->
    exists m bs, trains dops D sq FC MC init h = Ok (m, bs) /\ length bs = length h.
  Proof.
    intros h Sh Hn.
    destruct (trains_ok dops sq fc mc Hfc Hmc (2 ^ 26) clock timed_dops thr meth pthr h [] _
      (init_inv dops fc mc Hfc Hmc thr meth pthr) Hn Sh) as [m [bs [E [_ L]]]].
    eauto.
  Qed.

  Theorem mcnn_train_answer : forall h m x lb, reached h m -> sized fc h -> Z.of_nat (length h) < 2 ^ 26 -> length x = fc ->
    exists m' b, train dops D sq FC MC m x lb = Ok (m', b) /\
      (meth = 0 \/ meth = 2 -> b = true) /\
      (b = false -> all_live dops mc m' /\ clusters dops D m' = clusters dops D m /\
         count_clusters dops D m' = count_clusters dops D m /\
         (meth <> 1 -> forall i, live dops m' i = live dops m i)).
  Proof.
    intros h m x lb R Sh Hn Lx. assert (I := reached_good h m R Sh ltac:(lia)).
    destruct (train_ok dops sq fc mc Hfc Hmc (2 ^ 26) clock timed_dops thr meth pthr h m x lb I Hn Lx) as [m' [b [E [_ H]]]].
    exists m', b. split; [exact E|]. split.
    - intros M. destruct b; [reflexivity|]. destruct (H eq_refl) as [A [B _]]. destruct M; contradiction.
    - intros Hb. destruct (H Hb) as [A [B [C [D1 [E1 F1]]]]]. split; [exact C|]. split; [exact D1|]. split; [exact E1|].
      intros M i. rewrite F1. rewrite (proj2 (Z.eqb_neq meth 1)) by exact M. cbn [andb negb]. now rewrite andb_true_r.
  Qed.

  (** ** C28: what predict answers *)
  Theorem mcnn_predict_labels : forall h m x ec, reached h m -> sized fc h -> Z.of_nat (length h) <= 2 ^ 26 -> length x = fc ->
    exists r, predict dops D FC MC ec m x = Ok r /\ (r = ec \/ In r (map snd h)).
  Proof.
    intros h m x ec R Sh Hn Lx. destruct (reached_good h m R Sh Hn) as [J1 [J2 [_ [_ [_ [_ [J7 _]]]]]]].
    destruct (predict_ok dops fc mc ec Hfc Hmc h m x ltac:(split; auto) Lx) as [r [E H]]. exists r. split; [exact E|].
    cbv zeta in H. destruct H as [[_ ->]|[i [c [_ [Li [Sc ->]]]]]]; [now left|right].
    destruct (J7 i Li) as [c' [Sc' G]]. rewrite Sc in Sc'. injection Sc' as <-. apply G.
  Qed.

  Theorem mcnn_fresh_empty : forall x ec, length x = fc -> predict dops D FC MC ec init x = Ok ec.
  Proof.
    intros x ec Lx. pose proof (init_inv dops fc mc Hfc Hmc thr meth pthr) as I. destruct I as [J1 [J2 [_ [_ [_ [_ [J7 _]]]]]]].
    destruct (predict_ok dops fc mc ec Hfc Hmc [] init x ltac:(split; auto) Lx) as [r [E H]]. rewrite E. f_equal.
    cbv zeta in H. destruct H as [[_ ->]|[i [c [_ [Li [Sc _]]]]]]; [reflexivity|].
    destruct (J7 i Li) as [c' [_ [_ [[] _]]]].
  Qed.

  Theorem mcnn_first_point : forall x lb ec, length x = fc -> Forall (fun v : dbl => is_finite v = true) x ->
    exists m, train dops D sq FC MC init x lb = Ok (m, true) /\ predict dops D FC MC ec m x = Ok lb.
  Proof.
    intros x lb ec Lx Fx. pose proof (init_inv dops fc mc Hfc Hmc thr meth pthr) as I.
    destruct (step_cases dops sq fc mc Hfc Hmc (2 ^ 26) clock timed_dops thr meth pthr ordered_dops comparable_dops [] init x lb I ltac:(cbn [length]; lia) Lx)
      as [m1 [I1 [Cs [_ [_ [Lv H]]]]]]. cbv zeta in H. cbn [length Z.of_nat] in *.
    assert (Dead : forall i, live dops m1 i = false).
    { intros i. rewrite Lv. replace (live dops init i) with false; [reflexivity|]. unfold live, mcnn_init. cbn [active].
      rewrite Nat2Z.id. destruct (Nat.lt_ge_cases i mc); [now rewrite nth_repeat|now rewrite nth_overflow by (rewrite repeat_length; lia)]. }
    destruct H as [[_ [[i [Hi [_ [Bf H]]]]|[[Al _]|[Al _]]]]|[[j [cj [[_ [Wj _]] _]]]|[i [j [ci [cj [m2 [[_ [Wi _]] _]]]]]]]].
    - destruct i as [|i]; [|specialize (Bf 0%nat ltac:(lia)); rewrite Dead in Bf; discriminate].
      eexists. split; [exact H|].
      destruct (train_ok dops sq fc mc Hfc Hmc (2 ^ 26) clock timed_dops thr meth pthr [] init x lb I ltac:(cbn [length]; lia) Lx) as [m' [b [E [I' _]]]].
      rewrite H in E. set (c := fresh dops fc x lb (nofZ dops 0) (to_int thr)) in *.
      assert (m' = new_at dops m1 0 c) by congruence. subst m'. clear E.
      destruct I1 as [L1 [L2 _]].
      destruct I' as [K1 [K2 [_ [_ [_ [_ [K7 _]]]]]]].
      set (m' := new_at dops m1 0 c) in *.
      assert (Sl : slot dops m' 0 = Some c) by (unfold m', new_at; rewrite slot_upd by lia; reflexivity).
      assert (Lvs : forall i, live dops m' i = Nat.eqb 0 i).
      { intros i. unfold m', new_at, live. cbn [active]. rewrite nth_upd by lia. destruct (Nat.eqb_spec 0 i); [reflexivity|]. apply Dead. }
      assert (Near : nlt dops (dist_at dops fc m' x 0) (nofZ dops 1000000) = true).
      { unfold dist_at. rewrite Sl. unfold dist, c. cbn [fresh features_sum data_count].
        destruct (distance_self x fc) as [A B]; [|lia|].
        { intros k Hk. rewrite Forall_forall in Fx. apply Fx. apply nth_In. lia. }
        assert (Same : forall n, (n <= fc)%nat -> distance2 dops (coordinate dops x) (fun k => ndiv dops (coordinate dops (map (coordinate dops x) (seq 0 fc)) k) (nofZ dops 1)) n
          = distance2 dops (coordinate dops x) (fun k => ndiv dops (coordinate dops x k) (nofZ dops 1)) n).
        { induction n as [|n IH]; intros Hn; [reflexivity|]. cbn [distance2]. rewrite IH by lia.
          replace (coordinate dops (map (coordinate dops x) (seq 0 fc)) n) with (coordinate dops x n) by (symmetry; unshelve eapply (coord_map dops fc); eauto).
          reflexivity. }
        rewrite Same by lia. cbn [nlt dops]. destruct (dofZ_exact 1000000) as [R1 F1]; [lia|].
        change (nofZ dops 1000000) with (dofZ 1000000). apply dlt_true; [exact B|exact F1|]. rewrite R1. change (num dops) with dbl in *. rewrite A. lra. }
      destruct (predict_ok dops fc mc ec Hfc Hmc _ m' x ltac:(split; [exact K2|exact K7]) Lx) as [r [E H']]. rewrite E. f_equal. cbv zeta in H'.
      destruct (scanf_cases dops fc mc Hfc Hmc (wantedb dops m' (fun _ => true)) (dist_at dops fc m' x) mc) as [[_ [_ Nn]]|[i [Hi' [Ei [Wi _]]]]].
      + exfalso. specialize (Nn 0%nat Hi). rewrite Near in Nn. unfold wantedb in Nn. rewrite Lvs, Sl in Nn. discriminate (Nn eq_refl).
      + destruct H' as [[A _]|[i' [c' [A [Li [Sc ->]]]]]]; [rewrite A in Ei; lia|].
        rewrite Lvs in Li. apply Nat.eqb_eq in Li. subst i'. rewrite Sl in Sc. injection Sc as <-. reflexivity.
    - specialize (Al 0%nat Hmc). rewrite Dead in Al. discriminate.
    - specialize (Al 0%nat Hmc). rewrite Dead in Al. discriminate.
    - unfold wantedb in Wj. rewrite Dead in Wj. discriminate.
    - unfold wantedb in Wi. rewrite Dead in Wi. discriminate.
  Qed.

  (** ** C29: the nearest centre decides *)
  Theorem mcnn_predict_nearest : forall h m x ec, reached h m -> sized fc h -> Z.of_nat (length h) <= 2 ^ 26 -> length x = fc ->
    (exists i c, slot dops m i = Some c /\ predict dops D FC MC ec m x = Ok (label dops D c) /\
       first_nearest dops mc (live dops m) (dist_at dops fc m x) (dofZ 1000000) i) \/
    (predict dops D FC MC ec m x = Ok ec /\ none_near dops mc (live dops m) (dist_at dops fc m x) (dofZ 1000000)).
  Proof.
    intros h m x ec R Sh Hn Lx. destruct (reached_good h m R Sh Hn) as [J1 [J2 [_ [_ [_ [_ [J7 _]]]]]]].
    destruct (predict_ok dops fc mc ec Hfc Hmc h m x ltac:(split; auto) Lx) as [r [E H]]. rewrite E. cbv zeta in H.
    assert (Eq : forall i, wantedb dops m (fun _ => true) i = live dops m i).
    { intros i. unfold wantedb. destruct (live dops m i) eqn:Li; [|reflexivity]. destruct (J7 i Li) as [c [-> _]]. reflexivity. }
    destruct (scanf_best dops fc mc Hfc Hmc ordered_dops (wantedb dops m (fun _ => true)) (dist_at dops fc m x) mc) as [[A B]|[i [A B]]].
    - right. destruct H as [[_ ->]|[i [c [H _]]]]; [|rewrite A in H; lia]. split; [reflexivity|].
      intros j Hj Lj. apply B; auto. now rewrite Eq.
    - left. destruct H as [[H _]|[i' [c [H [Li [Sc ->]]]]]]; [rewrite A in H; lia|]. rewrite A in H. apply Nat2Z.inj in H. subst i'.
      exists i, c. split; [exact Sc|]. split; [reflexivity|]. destruct B as [B1 [B2 [B3 [B4 B5]]]].
      split; [exact B1|]. split; [exact Li|]. split; [exact B3|]. split; intros j Hj Lj; [apply B4|apply B5]; auto; now rewrite Eq.
  Qed.

  (** ** C30: the exact relation between [count_clusters] and the clusters in use *)
  Theorem mcnn_count_relation : forall h m, reached h m -> sized fc h -> Z.of_nat (length h) <= 2 ^ 26 ->
    let used := Z.of_nat (trues (active dops D m)) in
    used <= count_clusters dops D m /\ used <= MC /\
    (meth = 0 -> used = Z.min (count_clusters dops D m) MC) /\
    (meth <> 0 -> meth <> 1 -> meth <> 2 -> used = count_clusters dops D m).
  Proof.
    intros h m R Sh Hn. destruct (reached_good h m R Sh Hn) as [J1 [J2 [_ [_ [_ [_ [_ [J8 [J9 J10]]]]]]]]]. cbv zeta. unfold count_clusters.
    pose proof (trues_le (active dops D m)) as TL. split; [exact J8|]. split; [lia|]. split; [intros M; apply J9; lia|].
    intros M0 M1 M2. specialize (J9 M1 M2). specialize (J10 M0 M1 M2). lia.
  Qed.

  (** ** C32: the statistics of the clusters in use *)
  Theorem mcnn_cluster_sums : forall h m i, reached h m -> sized fc h -> Z.of_nat (length h) <= 2 ^ 26 -> live dops m i = true ->
    exists c p ps, slot dops m i = Some c /\
      (forall k, (k < fc)%nat -> coordinate dops (features_sum dops D c) k = sum_of dops p ps k) /\
      (forall k, (k < fc)%nat -> coordinate dops (features_square_sum dops D c) k = square_of dops p ps k) /\
      data_count dops D c = Z.of_nat (length (p :: ps)) /\
      (forall q, In q ps -> In (q, label dops D c) h) /\ In (label dops D c) (map snd h).
  Proof.
    intros h m i R Sh Hn Li. destruct (reached_good h m R Sh Hn) as [_ [_ [_ [_ [_ [_ [J7 _]]]]]]].
    destruct (J7 i Li) as [c [Sc [[p [ps [_ [_ [_ [_ [S3 [S4 [S5 S6]]]]]]]]] [HL _]]]].
    exists c, p, ps. repeat (split; [assumption|]). split; [|split; assumption]. rewrite S5. cbn [length]. lia.
  Qed.

  (** ** C70: what one call of [train] does *)
  Theorem mcnn_train_step : forall h m x lb, reached h m -> sized fc h -> Z.of_nat (length h) < 2 ^ 26 -> length x = fc ->
    exists m1, clusters dops D m1 = clusters dops D m /\
      (forall i, live dops m1 i = live dops m i &&
         negb (((meth =? 1) || (meth =? 2)) && match slot dops m i with
            | Some c => (1 <? data_count dops D c) &&
                dlt (participation dops (timestamp_sum dops D c) (initial_timestamp dops D c) (timestamp dops D m)) pthr
            | None => false end)) /\
      let t := dofZ (Z.of_nat (length h)) in
      let r := train dops D sq FC MC m x lb in
      let d := dist_at dops fc m1 x in
      let same := fun i => live dops m1 i && match slot dops m1 i with Some c => label dops D c =? lb | None => false end in
      let new := fresh dops fc x lb t (to_int thr) in
      ((none_near dops mc same d (dofZ 1000000) /\
         ((exists i, (i < mc)%nat /\ live dops m1 i = false /\ (forall j, (j < i)%nat -> live dops m1 j = true) /\
             r = Ok (new_at dops m1 i new, true)) \/
          (all_live dops mc m1 /\ (meth = 0 \/ meth = 2) /\ exists i, (i < mc)%nat /\ r = Ok (put dops m1 i new, true) /\
             (forall j c c', (j < mc)%nat -> slot dops m1 j = Some c -> slot dops m1 i = Some c' ->
               dlt (participation dops (timestamp_sum dops D c) (initial_timestamp dops D c) t)
                   (participation dops (timestamp_sum dops D c') (initial_timestamp dops D c') t) = false)) \/
          (all_live dops mc m1 /\ meth <> 0 /\ meth <> 2 /\ r = Ok (m1, false)))) \/
       (exists j c, first_nearest dops mc same d (dofZ 1000000) j /\ slot dops m1 j = Some c /\
          (forall i, live dops m1 i = true -> dlt (d i) (d j) = false) /\
          r = Ok (put dops m1 j (with_error dops (grown dops fc c x t) 1), true)) \/
       (exists i j ci cj m', first_nearest dops mc (live dops m1) d (dofZ 1000000) i /\ first_nearest dops mc same d (dofZ 1000000) j /\
          slot dops m1 i = Some ci /\ slot dops m1 j = Some cj /\ dlt (d i) (d j) = true /\
          m' = put dops (put dops m1 i (with_error dops ci (-1))) j (with_error dops (grown dops fc cj x t) (-1)) /\
          (error_count dops D ci > 1 -> error_count dops D cj > 1 -> r = Ok (m', true)))).
  Proof.
    intros h m x lb R Sh Hn Lx. assert (I := reached_good h m R Sh ltac:(lia)).
    destruct (step_cases dops sq fc mc Hfc Hmc (2 ^ 26) clock timed_dops thr meth pthr ordered_dops comparable_dops h m x lb I Hn Lx)
      as [m1 [I1 [Cs [T1 [_ [Lv H]]]]]]. cbv zeta in *.
    pose proof I1 as Iv. destruct Iv as [J1 [J2 [_ [_ [_ [_ [J7 _]]]]]]].
    assert (Eq : forall i, wantedb dops m1 (anyc dops) i = live dops m1 i).
    { intros i. unfold wantedb. destruct (live dops m1 i) eqn:Li; [|reflexivity]. destruct (J7 i Li) as [c [-> _]]. reflexivity. }
    exists m1. split; [exact Cs|]. split.
    { intros i. rewrite Lv. unfold weak. destruct I as [_ [_ [_ [_ [_ [-> _]]]]]]. reflexivity. }
    destruct H as [[Nn [H|[[Al [M [i [Hi [[_ Lw] H]]]]]|H]]]|[[j [cj [Fj [Sj [Mn H]]]]]|[i [j [ci [cj [m2 [Fi [Fj [Si [Sj [Nij [Lt [Em [I2 H]]]]]]]]]]]]]]].
    - left. split; [exact Nn|]. left. exact H.
    - left. split; [exact Nn|]. right. left. split; [exact Al|]. split; [exact M|]. exists i. split; [exact Hi|]. split; [exact H|].
      intros j c c' Hj Sj Si. pose proof (Lw ordered_dops j c c' (Al j Hj) Sj Si) as Q. rewrite T1 in Q. exact Q.
    - left. split; [exact Nn|]. right. right. exact H.
    - right. left. exists j, cj. auto.
    - right. right. exists i, j, ci, cj, m2. split.
      { destruct Fi as [A1 [A2 [A3 [A4 A5]]]]. split; [exact A1|]. split; [now rewrite <- Eq|]. split; [exact A3|].
        split; intros a Ha La; [apply A4|apply A5]; auto; now rewrite Eq. }
      split; [exact Fj|]. split; [exact Si|]. split; [exact Sj|]. split; [exact Lt|]. split; [exact Em|].
      intros Ei Ej. rewrite H. rewrite (proj2 (Z.leb_gt _ 1)) by lia. cbn [bind].
      destruct Fi as [Hi _]. destruct Fj as [Hj _].
      rewrite (rdi_slot dops m2 i (with_error dops ci (-1))).
      + cbn [bind with_error error_count]. rewrite (proj2 (Z.leb_gt _ 0)) by lia. reflexivity.
      + subst m2. rewrite slot_put by (cbn [put clusters]; rewrite upd_length; lia). rewrite (proj2 (Nat.eqb_neq j i)) by auto.
        rewrite slot_put by lia. now rewrite Nat.eqb_refl.
  Qed.

  (** ** C71: without eviction a class just learnt is represented *)
  Theorem mcnn_class_represented : forall h m x lb m', reached h m -> sized fc h -> Z.of_nat (length h) < 2 ^ 26 -> length x = fc ->
    meth <> 0 -> meth <> 2 -> train dops D sq FC MC m x lb = Ok (m', true) ->
    exists i c, live dops m' i = true /\ slot dops m' i = Some c /\ label dops D c = lb.
  Proof.
    intros h m x lb m' R Sh Hn Lx M0 M2 E. assert (I := reached_good h m R Sh ltac:(lia)).
    now apply (train_represents dops sq fc mc Hfc Hmc (2 ^ 26) clock timed_dops thr meth pthr ordered_dops comparable_dops h m x lb m' I).
  Qed.

  (** ** C68: what a split does *)
  Theorem mcnn_split : forall h m ci c, reached h m -> sized fc h -> Z.of_nat (length h) <= 2 ^ 26 ->
    live dops m ci = true -> slot dops m ci = Some c ->
    (split dops D sq FC MC m (Z.of_nat ci) = Ok m /\ all_live dops mc m /\ meth <> 0 /\ meth <> 2) \/
    (exists m' new k q, split dops D sq FC MC m (Z.of_nat ci) = Ok m' /\
       (k < fc)%nat /\ (forall j, (j < fc)%nat -> dlt (var dops c k) (var dops c j) = false) /\
       (new < mc)%nat /\
       ((live dops m new = false /\ new <> ci) \/
        (all_live dops mc m /\ (meth = 0 \/ meth = 2) /\
         forall j c1 c2, (j < mc)%nat -> slot dops m j = Some c1 -> slot dops m new = Some c2 ->
           dlt (participation dops (timestamp_sum dops D c1) (initial_timestamp dops D c1) (timestamp dops D m))
               (participation dops (timestamp_sum dops D c2) (initial_timestamp dops D c2) (timestamp dops D m)) = false)) /\
       slot dops m' ci = Some (fresh dops fc (upper dops sq fc c k) (label dops D c) (dofZ q) (to_int thr)) /\
       (new <> ci -> slot dops m' new = Some (fresh dops fc (lower dops sq fc c k) (label dops D c) (dofZ q) (to_int thr))) /\
       (forall j, j <> ci -> j <> new -> slot dops m' j = slot dops m j) /\
       (forall j, live dops m' j = live dops m j || Nat.eqb new j) /\
       count_clusters dops D m' = count_clusters dops D m + 1).
  Proof.
    intros h m ci c R Sh Hn Lc Sc. assert (I := reached_good h m R Sh Hn). pose proof I as Iv. destruct Iv as [J1 [J2 _]].
    assert (Hci : (ci < mc)%nat) by (eapply (live_lt dops); eauto).
    destruct (split_ok dops sq fc mc Hfc Hmc (2 ^ 26) timed_dops thr meth pthr h _ m ci c I Lc Sc Hn) as [A|[new [kf [q [Hnew [[Hk Wd] [Hq [Cs A]]]]]]]]; [left; exact A|right].
    exists (after_split dops sq fc thr m ci new kf c q), new, kf, q. split; [exact A|]. split; [exact Hk|]. split; [exact (Wd ordered_dops)|].
    split; [exact Hnew|]. split.
    { destruct Cs as [Cs|[Al [M [_ Lw]]]]; [left; exact Cs|right]. split; [exact Al|]. split; [exact M|].
      intros j c1 c2 Hj S1 S2. apply (Lw ordered_dops j c1 c2); auto. }
    unfold after_split. split; [|split; [|split; [|split]]].
    - rewrite slot_upd by (rewrite upd_length; lia). now rewrite Nat.eqb_refl.
    - intros Nn. rewrite slot_upd by (rewrite upd_length; lia). rewrite (proj2 (Nat.eqb_neq ci new)) by auto.
      rewrite slot_upd by lia. now rewrite Nat.eqb_refl.
    - intros j N1 N2. rewrite slot_upd by (rewrite upd_length; lia). rewrite (proj2 (Nat.eqb_neq ci j)) by auto.
      rewrite slot_upd by lia. rewrite (proj2 (Nat.eqb_neq new j)) by auto. destruct m; reflexivity.
    - intros j. unfold live. cbn [active]. rewrite nth_upd by lia. destruct (Nat.eqb new j); [now rewrite orb_true_r|now rewrite orb_false_r].
    - reflexivity.
  Qed.
End Safe.
Print Assumptions mcnn_trains_safe.
Print Assumptions mcnn_train_answer.
Print Assumptions mcnn_predict_labels.
Print Assumptions mcnn_fresh_empty.
Print Assumptions mcnn_first_point.
Print Assumptions mcnn_predict_nearest.
Print Assumptions mcnn_count_relation.
Print Assumptions mcnn_cluster_sums.
Print Assumptions mcnn_train_step.
Print Assumptions mcnn_class_represented.
Print Assumptions mcnn_split.

(** ** C29 and C32 over the reals: centres are means, variances are variances *)
Theorem mcnn_predict_nearest_mean : forall sq fc mc thr meth pthr h m x ec, (1 <= fc)%nat -> (1 <= mc)%nat ->
  reached rops RR sq fc mc thr meth pthr h m -> sized fc h -> Z.of_nat (length h) <= 2 ^ 31 -> length x = fc ->
  exists points : nat -> list (list R),
    (forall i, live rops m i = true -> exists c, slot rops m i = Some c /\
       data_count rops RR c = Z.of_nat (length (points i)) /\ In (label rops RR c) (map snd h) /\
       (forall q, In q (tl (points i)) -> In (q, label rops RR c) h) /\
       (forall k, (k < fc)%nat -> var rops c k = variance_of (points i) k) /\
       centroid rops RR (Z.of_nat fc) c = Ok (map (mean_of (points i)) (seq 0 fc))) /\
    let d := fun i => distance2 rops (coordinate rops x) (mean_of (points i)) fc in
    ((exists i c, live rops m i = true /\ slot rops m i = Some c /\
        predict rops RR (Z.of_nat fc) (Z.of_nat mc) ec m x = Ok (label rops RR c) /\ (d i < 1000000)%R /\
        forall j, live rops m j = true -> (d i <= d j)%R /\ ((j < i)%nat -> (d i < d j)%R)) \/
     (predict rops RR (Z.of_nat fc) (Z.of_nat mc) ec m x = Ok ec /\ forall j, live rops m j = true -> (1000000 <= d j)%R)).
Proof.
  intros sq fc mc thr meth pthr h m x ec Hfc Hmc R Sh Hn Lx.
  assert (I := reached_inv rops sq fc mc Hfc Hmc (2 ^ 31) ltac:(lia) (timed_rops (2 ^ 31) ltac:(lia)) thr meth pthr h m R Sh Hn).
  destruct I as [J1 [J2 [_ [_ [_ [_ [J7 _]]]]]]].
  assert (Pts : exists pts : nat -> list (list (num rops)), forall i, live rops m i = true ->
    exists c p ps, pts i = p :: ps /\ slot rops m i = Some c /\ stats rops fc h c p ps /\ In (label rops RR c) (map snd h)).
  { assert (G : forall n, exists pts : nat -> list (list (num rops)), forall i, (i < n)%nat -> live rops m i = true ->
      exists c p ps, pts i = p :: ps /\ slot rops m i = Some c /\ stats rops fc h c p ps /\ In (label rops RR c) (map snd h)).
    { induction n as [|n [pts IH]]; [exists (fun _ => []); lia|].
      destruct (live rops m n) eqn:Ln.
      - destruct (J7 n Ln) as [c [Sc [[p [ps [_ [_ St]]]] [HL _]]]]. exists (fun i => if Nat.eqb i n then p :: ps else pts i).
        intros i Hi Li. destruct (Nat.eqb_spec i n) as [->|Ni]; [exists c, p, ps; auto|]. apply IH; auto. lia.
      - exists pts. intros i Hi Li. destruct (Nat.eq_dec i n) as [->|Ni]; [congruence|]. apply IH; auto. lia. }
    destruct (G mc) as [pts H]. exists pts. intros i Li. apply H; auto. eapply (live_lt rops); eauto. }
  destruct Pts as [pts Hp]. exists pts. split.
  - intros i Li. destruct (Hp i Li) as [c [p [ps [E [Sc [St HL]]]]]]. exists c. split; [exact Sc|]. rewrite E.
    pose proof St as St'. destruct St' as [S1 [S2 [S3 [S4 [S5 S6]]]]].
    split; [rewrite S5; transitivity (Z.of_nat (S (length ps))); [lia|reflexivity]|]. split; [exact HL|]. split; [exact S6|]. split; [intros k Hk; now apply (var_stats fc h)|].
    unfold centroid. rewrite (fill_ok _ _ (mean_of (p :: ps))); [reflexivity|].
    intros k Hk. rewrite (rd_coord rops fc mc Hfc Hmc) by auto. cbn [bind fofd fdbl fdouble ndiv nofZ rops].
    f_equal. now apply (mean_stats fc h).
  - cbv zeta.
    assert (Dd : forall i, live rops m i = true -> dist_at rops fc m x i = distance2 rops (coordinate rops x) (mean_of (pts i)) fc).
    { intros i Li. destruct (Hp i Li) as [c [p [ps [E [Sc [St HL]]]]]]. unfold dist_at. rewrite Sc, E. now apply (dist_stats fc h). }
    destruct (predict_ok rops fc mc ec Hfc Hmc h m x ltac:(split; auto) Lx) as [r [E H]]. rewrite E. cbv zeta in H.
    assert (Eq : forall i, wantedb rops m (fun _ => true) i = live rops m i).
    { intros i. unfold wantedb. destruct (live rops m i) eqn:Li; [|reflexivity]. destruct (J7 i Li) as [c [-> _]]. reflexivity. }
    assert (Lm : forall i, live rops m i = true -> (i < mc)%nat) by (intros; eapply (live_lt rops); eauto).
    destruct (scanf_best rops fc mc Hfc Hmc ordered_rops (wantedb rops m (fun _ => true)) (dist_at rops fc m x) mc) as [[A B]|[i [A B]]].
    + right. destruct H as [[_ ->]|[i [c [H _]]]]; [|rewrite A in H; lia]. split; [reflexivity|].
      intros j Lj. specialize (B j (Lm j Lj)). rewrite Eq in B. specialize (B Lj). rewrite Dd in B by auto. now apply Rlt_not in B.
    + left. destruct H as [[H _]|[i' [c [H [Li [Sc ->]]]]]]; [rewrite A in H; lia|]. rewrite A in H. apply Nat2Z.inj in H. subst i'.
      exists i, c. split; [exact Li|]. split; [exact Sc|]. split; [reflexivity|]. destruct B as [B1 [B2 [B3 [B4 B5]]]].
      rewrite Dd in B3 by auto. split; [now apply Rlt_iff in B3|].
      intros j Lj. specialize (B4 j (Lm j Lj)). rewrite Eq, !Dd in B4 by auto. specialize (B4 Lj). apply Rlt_not in B4. split; [exact B4|].
      intros Hj. specialize (B5 j Hj). rewrite Eq, !Dd in B5 by auto. specialize (B5 Lj). cbn [nle rops] in B5.
      match type of B5 with Rle_bool ?a ?b = false => destruct (Rle_bool_spec a b); [discriminate|assumption] end.
Qed.
Print Assumptions mcnn_predict_nearest_mean.

(** ** Concrete classifiers *)
Definition dsqrt (x : dbl) : dbl := Bsqrt mode_NE x.
Definition at_ (z : Z) : list dbl := [dofZ z].
Definition demo (mc thr meth : Z) (h : list (list dbl * Z)) : res (mcnn dops D * list bool) :=
  trains dops D dsqrt 1 mc (mcnn_init dops D mc thr meth (dofZ 50)) h.
Definition ask (ec : Z) (mc : Z) (r : res (mcnn dops D * list bool)) (x : Z) : res Z :=
  do (m, _) <- r; predict dops D 1 mc ec m (at_ x).
Definition summary (r : res (mcnn dops D * list bool)) : res (Z * Z * list bool) :=
  do (m, bs) <- r; Ok (count_clusters dops D m, Z.of_nat (trues (active dops D m)), bs).
(** Label, number of points, error count and sums (truncated) by slot. *)
Definition content (r : res (mcnn dops D * list bool)) : res (list (option (Z * Z * Z * list (res Z)))) :=
  do (m, _) <- r;
  Ok (map (option_map (fun c => (label dops D c, data_count dops D c, error_count dops D c, map d2int (features_sum dops D c)))) (clusters dops D m)).

Example mcnn_example_labels :
  ask (-1) 3 (demo 3 2 0 [(at_ 0, 1); (at_ 10, 2); (at_ 2, 1)]) 3 = Ok 1 /\
  ask (-1) 3 (demo 3 2 0 [(at_ 0, 1); (at_ 10, 2); (at_ 2, 1)]) 8 = Ok 2 /\
  ask (-1) 3 (demo 3 2 0 []) 8 = Ok (-1) /\
  ask (-1) 3 (demo 3 2 0 [(at_ 7, 5)]) 7 = Ok 5.
Proof. repeat split; vm_compute; reflexivity. Qed.

(** The second point joins the first, the third founds a cluster, the last one is nearer to a wrong cluster. *)
Example mcnn_example_step :
  content (demo 3 2 0 [(at_ 0, 1); (at_ 2, 1); (at_ 20, 2); (at_ 15, 1)]) =
    Ok [Some (1, 3, 2, [Ok 17]); Some (2, 1, 1, [Ok 20]); None] /\
  summary (demo 3 2 0 [(at_ 0, 1); (at_ 2, 1); (at_ 20, 2); (at_ 15, 1)]) = Ok (2, 2, [true; true; true; true]).
Proof. split; vm_compute; reflexivity. Qed.

(** Method 3 never evicts: a third class finds the table full. *)
Example mcnn_example_full :
  summary (demo 2 2 3 [(at_ 0, 1); (at_ 20, 2); (at_ 40, 3)]) = Ok (2, 2, [true; true; false]) /\
  summary (demo 2 2 0 [(at_ 0, 1); (at_ 20, 2); (at_ 40, 3)]) = Ok (2, 2, [true; true; true]) /\
  ask (-1) 2 (demo 2 2 3 [(at_ 0, 1); (at_ 20, 2); (at_ 40, 3)]) 40 = Ok 2 /\
  content (demo 2 2 0 [(at_ 0, 1); (at_ 20, 2); (at_ 40, 3)]) = Ok [Some (3, 1, 2, [Ok 40]); Some (2, 1, 2, [Ok 20])].
Proof. repeat split; vm_compute; reflexivity. Qed.

(** The cluster of 0 and 11 is split into one at 0 and one at 11; the one at 20 is split too, into two equal ones. *)
Example mcnn_example_split :
  content (demo 4 1 0 [(at_ 0, 1); (at_ 20, 2); (at_ 11, 1)]) = Ok [Some (1, 1, 1, [Ok 11]); Some (2, 1, 1, [Ok 20]); Some (1, 1, 1, [Ok 0]); Some (2, 1, 1, [Ok 20])].
Proof. vm_compute. reflexivity. Qed.

(** ** C29: a far query gets the empty class although a cluster exists *)
Theorem mcnn_far_query_refuted : exists h x ec, summary (demo 2 2 0 h) = Ok (1, 1, [true]) /\ ~ In ec (map snd h) /\ ask ec 2 (demo 2 2 0 h) x = Ok ec.
Proof. exists [(at_ 0, 1)], 1001, (-1). repeat split; try (vm_compute; reflexivity). cbn. intros [H|[]]. discriminate. Qed.
Print Assumptions mcnn_far_query_refuted.

(** ** C30: [count_clusters] is not the number of clusters in use *)
Theorem mcnn_count_refuted :
  (exists h, match summary (demo 2 1 0 h) with Ok (n, used, _) => n = 3 /\ used = 2 | _ => False end) /\
  (exists h, match summary (demo 3 2 1 h) with Ok (n, used, _) => n = 2 /\ used = 1 | _ => False end).
Proof.
  split.
  - exists [(at_ 0, 1); (at_ 10, 1); (at_ 20, 2); (at_ 14, 1)]. vm_compute. auto.
  - exists [(at_ 0, 1); (at_ 1, 1); (at_ 100, 2); (at_ 101, 2); (at_ 102, 2); (at_ 103, 2); (at_ 104, 2); (at_ 105, 2); (at_ 106, 2); (at_ 107, 2)].
    vm_compute. auto.
Qed.
Print Assumptions mcnn_count_refuted.

(** ** C71: with eviction a class just learnt can vanish in the same call *)
Definition forgets (h : list (list dbl * Z)) (x lb : Z) : bool :=
  match demo 2 1 0 h with
  | Ok (m, _) =>
      match train dops D dsqrt 1 2 m (at_ x) lb with
      | Ok (m', b) => b && forallb (fun o => match o with Some c => negb (label dops D c =? lb) | None => true end) (clusters dops D m')
      | _ => false
      end
  | _ => false
  end.
Theorem mcnn_class_lost_refuted : exists h x lb m bs m', demo 2 1 0 h = Ok (m, bs) /\ train dops D dsqrt 1 2 m (at_ x) lb = Ok (m', true) /\
  forall i c, slot dops m' i = Some c -> label dops D c <> lb.
Proof.
  exists [(at_ 0, 1); (at_ 10, 1); (at_ 20, 2)], 14, 1.
  assert (G : forgets [(at_ 0, 1); (at_ 10, 1); (at_ 20, 2)] 14 1 = true) by (vm_compute; reflexivity).
  revert G. unfold forgets. destruct (demo 2 1 0 _) as [[m bs]| | |]; try discriminate.
  destruct (train dops D dsqrt 1 2 m (at_ 14) 1) as [[m' b]| | |] eqn:E; try discriminate.
  intros G. apply andb_prop in G. destruct G as [Hb G]. subst b. exists m, bs, m'. split; [reflexivity|]. split; [exact E|].
  intros i c Sc. rewrite forallb_forall in G. unfold slot in Sc. destruct (nth_error (clusters dops D m') i) as [[c'|]|] eqn:Hn; try discriminate.
  injection Sc as ->. apply nth_error_In in Hn. specialize (G _ Hn). cbv beta iota in G. apply negb_true_iff in G. now apply Z.eqb_neq in G.
Qed.
Print Assumptions mcnn_class_lost_refuted.

(** ** C69: with [int] features the split of a cluster of negative sum is undefined *)
Definition demo_int (mc thr meth : Z) (h : list (list Z * Z)) : res (mcnn dops (fint dops) * list bool) :=
  trains dops (fint dops) dsqrt 1 mc (mcnn_init dops (fint dops) mc thr meth (dofZ 50)) h.
Theorem mcnn_int_split_refuted : exists h,
  Forall (fun p => Forall (fun v => -200 <= v <= 200) (fst p) /\ length (fst p) = 1%nat) h /\
  demo_int 3 1 0 h = Undef SignedOverflow.
Proof.
  exists [([-100], 1); ([-102], 1); ([10], 2); ([0], 1); ([0], 1)]. split.
  - repeat constructor; cbn [fst]; lia.
  - assert (G : match demo_int 3 1 0 [([-100], 1); ([-102], 1); ([10], 2); ([0], 1); ([0], 1)] with Undef SignedOverflow => true | _ => false end = true)
      by (vm_compute; reflexivity).
    destruct (demo_int 3 1 0 _) as [|[]| |]; try discriminate G. reflexivity.
Qed.
Print Assumptions mcnn_int_split_refuted.
