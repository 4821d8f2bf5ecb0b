(** * Properties of the metrics (C33-C36) *)
From Coq Require Import ZArith List Bool Lia Reals Lra Permutation.
From Flocq Require Import Core BinarySingleNaN.
From Verif Require Import CppBase CppFacts Dbl DblFacts NumOps NumFacts Reservoir_Spec Reservoir_Prob
  Metrics_Model Metrics_Spec Metrics_Proofs.
Import ListNotations.
Local Open Scope Z_scope.

(** For the examples: the outcome is this number. *)
Definition gives (r : res dbl) (x : dbl) : bool := match r with Ok y => deq y x | _ => false end.

(** C33. In exact arithmetic the score is the error rate, the inverted score its
    complement; with ratio they are multiplied, respectively divided, by the size. *)
Theorem error_score_exact :
  forall l, Forall inc_ok l -> at_most 2147483647 l -> observations l <> [] ->
  exists m, err_run err_init l = Ok m /\
    let e := error_rate (observations l) in
    (0 <= e <= 1)%R /\
    forall size,
    err_score rops false m false size = Ok e /\
    err_score rops false m true size = Ok (1 - e)%R /\
    err_score rops true m false size = Ok (e * IZR size)%R /\
    err_score rops true m true size = Ok ((1 - e) / IZR size)%R.
Proof.
  intros l Hi Hm Hn. eexists. split; [now apply err_state|].
  pose proof (at_most_all _ _ Hm) as Hlen. set (obs := observations l) in *.
  pose proof (count_le _ wrong obs) as Hc.
  assert (P : 0 < Z.of_nat (length obs)) by (destruct obs; [congruence|cbn; lia]).
  assert (PR : (0 < IZR (Z.of_nat (length obs)))%R) by now apply IZR_lt.
  cbn zeta. unfold error_rate, freq. split.
  - assert (0 <= IZR (count_if wrong obs) <= IZR (Z.of_nat (length obs)))%R by (split; apply IZR_le; lia).
    split; [apply Rmult_le_reg_r with (IZR (Z.of_nat (length obs))); auto; field_simplify; lra|].
    apply Rmult_le_reg_r with (IZR (Z.of_nat (length obs))); auto. field_simplify; lra.
  - intros size. unfold err_score. cbn [err_count err_errors andb negb].
    rewrite sint_ok by lia. cbn [bind ndiv nmul nofZ rops].
    assert (E : (IZR (Z.of_nat (length obs) - count_if wrong obs) / IZR (Z.of_nat (length obs)) =
                 1 - IZR (count_if wrong obs) / IZR (Z.of_nat (length obs)))%R).
    { rewrite minus_IZR. field. lra. }
    rewrite E. repeat split.
Qed.
Print Assumptions error_score_exact.

(** C33. In binary64 the score is the error rate rounded once, and lies in [0,1]. *)
Theorem error_score_ieee :
  forall l, Forall inc_ok l -> at_most 2147483647 l -> observations l <> [] ->
  exists m (s i : dbl), err_run err_init l = Ok m /\
    err_score dops false m false (-1) = Ok s /\ err_score dops false m true (-1) = Ok i /\
    is_finite s = true /\ B2R s = rnd64 (error_rate (observations l)) /\ (0 <= B2R s <= 1)%R /\
    is_finite i = true /\ B2R i = rnd64 (1 - error_rate (observations l)) /\ (0 <= B2R i <= 1)%R.
Proof.
  intros l Hi Hm Hn. pose proof (error_score_exact l Hi Hm Hn) as [m0 [R0 [Hr Hx]]].
  rewrite (err_state l Hi Hm) in R0. injection R0 as <-.
  pose proof (at_most_all _ _ Hm) as Hlen. set (obs := observations l) in *.
  pose proof (count_le _ wrong obs) as Hc.
  assert (P : 0 < Z.of_nat (length obs)) by (destruct obs; [congruence|cbn; lia]).
  eexists. exists (ddiv (dofZ (count_if wrong obs)) (dofZ (Z.of_nat (length obs)))).
  exists (ddiv (dofZ (Z.of_nat (length obs) - count_if wrong obs)) (dofZ (Z.of_nat (length obs)))).
  split; [now apply err_state|].
  assert (Hs : sint (Z.of_nat (length obs) - count_if wrong obs) = Ok (Z.of_nat (length obs) - count_if wrong obs)) by (apply sint_ok; lia).
  destruct (Hx 0) as [_ [E2 _]]. unfold err_score in *. cbn [err_count err_errors andb negb] in *.
  fold obs. rewrite Hs. rewrite Hs in E2. cbn [bind ndiv nofZ rops] in E2. injection E2 as E2. cbn [bind ndiv nofZ dops].
  split; [reflexivity|]. split; [reflexivity|].
  assert (E1 : (IZR (count_if wrong obs) / IZR (Z.of_nat (length obs)) = error_rate obs)%R) by reflexivity.
  assert (H0 : Z.abs 0 <= 2 ^ 53) by (vm_compute; discriminate).
  assert (H1 : Z.abs 1 <= 2 ^ 53) by (vm_compute; discriminate).
  destruct (ddivZ (count_if wrong obs) (Z.of_nat (length obs))) as [A1 A2]; try lia.
  destruct (ddivZ (Z.of_nat (length obs) - count_if wrong obs) (Z.of_nat (length obs))) as [B1 B2]; try lia.
  rewrite E1 in A1. rewrite E2 in B1.
  split; [exact A2|]. split; [exact A1|]. split.
  { rewrite A1. split; [apply (rnd_ge_Z 0); auto; lra | apply (rnd_le_Z 1); auto; lra]. }
  split; [exact B2|]. split; [exact B1|].
  rewrite B1. split; [apply (rnd_ge_Z 0); auto; lra | apply (rnd_le_Z 1); auto; lra].
Qed.
Print Assumptions error_score_ieee.

Example error_score_ex :
  let l := [MUpdate 1 2; MReset; MUpdate 1 1; MUpdate 2 1; MIncrease 2] in
  observations l = [(1, 1); (2, 1); (0, 1); (0, 1)] /\
  gives (do m <- err_run err_init l; err_score dops false m false (-1)) (dlit 3 (-2)) = true /\
  gives (do m <- err_run err_init l; err_score dops true m true 2) (dlit 1 (-3)) = true.
Proof. split; [reflexivity|]. split; vm_compute; reflexivity. Qed.

(** C34. In exact arithmetic the metric is Cohen's kappa of the observations since the
    last reset, for any history of calls. *)
Theorem kappa_is_cohen :
  forall L l, 1 <= L -> Forall (call_ok L) l -> at_most 2147483647 l ->
  observations l <> [] -> chance L (observations l) <> 1%R ->
  exists m, kappa_run L (kappa_reset L) l = Ok m /\
    let k := cohen L (observations l) in
    kappa rops L m = Ok k /\ (-1 <= k <= 1)%R /\
    (k = 1%R <-> forall o, In o (observations l) -> fst o = snd o) /\
    forall size,
    kappa_score rops L false m true size = Ok ((k + 1) / 2)%R /\
    kappa_score rops L false m false size = Ok ((1 - k) / 2)%R /\
    kappa_score rops L true m true size = Ok ((k + 1) / 2 / IZR size)%R /\
    kappa_score rops L true m false size = Ok ((1 - k) / 2 * IZR size)%R.
Proof.
  intros L l HL Hc Hm Hn Hx. pose proof (obs_labels L l Hc) as lab.
  rewrite (chance_one L _ HL lab Hn) in Hx. fold (one_cell (observations l)) in Hx.
  destruct (rops_kappa L l HL Hc Hm Hn Hx) as [m [R K]]. exists m. split; [exact R|].
  cbn zeta. split; [exact K|]. split; [now apply cohen_range|]. split; [now apply cohen_one|].
  intros size. unfold kappa_score. rewrite K. cbn [bind andb negb nadd nmul ndiv nofZ rops].
  set (k := cohen L (observations l)). replace (k * -1 + 1)%R with (1 - k)%R by ring. repeat split.
Qed.
Print Assumptions kappa_is_cohen.

(** C34. In binary64, up to 94906265 observations (the square stays below 2^53): kappa is
    the exact value rounded once; both scores are in [0,1]. *)
Theorem kappa_ieee :
  forall L l, 1 <= L -> Forall (call_ok L) l -> at_most 94906265 l ->
  observations l <> [] -> chance L (observations l) <> 1%R ->
  exists m (k s i : dbl), kappa_run L (kappa_reset L) l = Ok m /\
    kappa dops L m = Ok k /\ is_finite k = true /\ B2R k = rnd64 (cohen L (observations l)) /\
    kappa_score dops L false m false (-1) = Ok s /\ is_finite s = true /\ (0 <= B2R s <= 1)%R /\
    kappa_score dops L false m true (-1) = Ok i /\ is_finite i = true /\ (0 <= B2R i <= 1)%R.
Proof.
  intros L l HL Hc Hm Hn Hx. pose proof (obs_labels L l Hc) as lab.
  rewrite (chance_one L _ HL lab Hn) in Hx. fold (one_cell (observations l)) in Hx.
  destruct (dops_kappa L l HL Hc Hm Hn Hx) as [m [k [R [K [Fk Rk]]]]].
  pose proof (cohen_range L (observations l) HL lab Hn Hx) as Hr.
  assert (Hk : (-1 <= B2R k <= 1)%R).
  { rewrite Rk. split; [apply (rnd_ge_Z (-1)); [vm_compute; discriminate|lra] | apply (rnd_le_Z 1); [vm_compute; discriminate|lra]]. }
  destruct (dnegm1 k Fk) as [Fn Rn].
  destruct (score_unit k Fk Hk) as [A1 [A2 _]].
  destruct (score_unit (dmul k (dofZ (-1))) Fn) as [B1 [B2 _]]. { rewrite Rn. lra. }
  exists m, k. do 2 eexists. split; [exact R|]. split; [exact K|]. split; [exact Fk|]. split; [exact Rk|].
  unfold kappa_score. rewrite K. cbn [bind andb negb nadd nmul ndiv nofZ dops].
  split; [reflexivity|]. split; [exact B1|]. split; [exact B2|].
  split; [reflexivity|]. split; [exact A1|exact A2].
Qed.
Print Assumptions kappa_ieee.

(** C34. The order of the observations does not matter. *)
Theorem kappa_order_irrelevant :
  forall L l1 l2, 1 <= L -> Forall (call_ok L) l1 -> Forall (call_ok L) l2 ->
  at_most 2147483647 l1 -> at_most 2147483647 l2 -> Permutation (observations l1) (observations l2) ->
  kappa_run L (kappa_reset L) l1 = kappa_run L (kappa_reset L) l2.
Proof. exact kappa_order. Qed.
Print Assumptions kappa_order_irrelevant.

(** 45 of 60 agree: kappa = 1/2. *)
Example kappa_ex :
  let l := repeat (MUpdate 0 0) 25 ++ repeat (MUpdate 0 1) 10 ++ repeat (MUpdate 1 0) 5 ++ repeat (MUpdate 1 1) 20 in
  gives (do m <- kappa_run 2 (kappa_reset 2) l; kappa dops 2 m) dhalf = true /\
  Forall (call_ok 2) l /\ chance 2 (observations l) = (/ 2)%R.
Proof.
  split; [vm_compute; reflexivity|]. split.
  - repeat (apply Forall_app; split); apply Forall_forall; intros x Hx; apply repeat_spec in Hx; subst; cbn; lia.
  - unfold chance, freq. change (Z.to_nat 2) with 2%nat. cbn [rsum].
    match goal with |- context [length ?o] => change (length o) with 60%nat end.
    repeat match goal with |- context [count_if ?p ?o] => let v := eval vm_compute in (count_if p o) in change (count_if p o) with v end.
    change (Z.of_nat 60) with 60. lra.
Qed.

(** C35 is false: with one label increase_error writes outside the matrix, always. *)
Theorem kappa_one_label_refuted :
  forall l m c, kappa_run 1 (kappa_reset 1) l = Ok m -> kappa_increase m c = Undef OutOfBounds.
Proof.
  assert (W : forall i j c m m', Z.of_nat (length (confusion m)) = 1 -> (forall r, In r (confusion m) -> Z.of_nat (length r) = 1) ->
    cell_add m i j c = Ok m' -> Z.of_nat (length (confusion m')) = 1 /\ forall r, In r (confusion m') -> Z.of_nat (length r) = 1).
  { intros i j c [cf t] m' H1 H2 H. cbn [confusion] in *. unfold cell_add in H. cbn [confusion] in H.
    destruct cf as [|r0 [|]]; cbn in H1; try lia.
    apply bind_inv in H. destruct H as [r [R H]]. apply rd_ok_iff in R. destruct R as [_ R]. apply nth_error_In in R.
    pose proof (H2 r R) as Hr. apply bind_inv in H. destruct H as [v [_ H]]. apply bind_inv in H. destruct H as [v' [_ H]].
    apply bind_inv in H. destruct H as [r' [W1 H]]. apply wr_length in W1.
    apply bind_inv in H. destruct H as [cf' [W2 H]]. apply bind_inv in H. destruct H as [t' [_ H]]. injection H as <-.
    cbn [confusion]. apply wr_inv in W2. destruct W2 as [Wb ->]. cbn [length] in Wb.
    assert (Z.to_nat i = 0%nat) as -> by lia. cbn [upd length].
    split; [lia|]. intros q [<-|[]]. lia. }
  assert (I : forall l m, kappa_run 1 (kappa_reset 1) l = Ok m ->
    Z.of_nat (length (confusion m)) = 1 /\ forall r, In r (confusion m) -> Z.of_nat (length r) = 1).
  { induction l as [|o l IH] using rev_ind; intros m H.
    - injection H as <-. split; [reflexivity|]. intros r [<-|[]]. reflexivity.
    - rewrite kappa_run_app in H. apply bind_inv in H. destruct H as [m1 [R H]]. destruct (IH m1 R) as [A B].
      destruct o; cbn [kappa_step] in H; [| |injection H as <-; split; [reflexivity|]; intros r [<-|[]]; reflexivity];
      eapply W; eauto. }
  intros l m c H. destruct (I l m H) as [A B]. unfold kappa_increase, cell_add.
  destruct (confusion m) as [|r [|]]; cbn in A; try lia.
  change (rd [r] 0) with (@Ok (list Z) r). cbn [bind]. rewrite rd_oob; [reflexivity|]. right. rewrite B; [lia|now left].
Qed.
Print Assumptions kappa_one_label_refuted.

(** C35. The score is NaN exactly when all observations (or none) are in one diagonal
    cell, for instance after any number of correct predictions of a single label. *)
Theorem kappa_nan_iff :
  forall L l, 1 <= L -> Forall (call_ok L) l -> at_most 94906265 l ->
  exists m (k : dbl), kappa_run L (kappa_reset L) l = Ok m /\ kappa dops L m = Ok k /\
    (k = dnan <-> exists a, forall o, In o (observations l) -> o = (a, a)).
Proof.
  intros L l HL Hc Hm. destruct (classic_one (observations l)) as [H|H].
  - destruct (nan_kappa L l HL Hc Hm H) as [m [R K]]. exists m, dnan. split; [exact R|]. split; [exact K|].
    split; intros _; [exact H|reflexivity].
  - assert (Hn : observations l <> []). { intros E. apply H. rewrite E. exists 0. intros o []. }
    destruct (dops_kappa L l HL Hc Hm Hn H) as [m [k [R [K [Fk _]]]]]. exists m, k. split; [exact R|]. split; [exact K|].
    split; [intros ->; discriminate|]. intros Q. now exfalso.
Qed.
Print Assumptions kappa_nan_iff.

Theorem kappa_defined_refuted :
  exists L l m, 1 <= L /\ Forall (call_ok L) l /\ observations l <> [] /\
    kappa_run L (kappa_reset L) l = Ok m /\ kappa_score dops L false m false (-1) = Ok dnan.
Proof.
  exists 3, [MUpdate 1 1; MUpdate 1 1]. eexists. split; [lia|]. split; [repeat constructor; cbn; lia|].
  split; [discriminate|]. split; [vm_compute; reflexivity|]. vm_compute. reflexivity.
Qed.
Print Assumptions kappa_defined_refuted.

(** C36. Any history of constructions and resets: one object is the newest; the scores of
    it and of k others add up to 1, all lie in [0,1], the others are equal. *)
Theorem reservoir_metric_distribution :
  forall l s, (forall i j, ~ In (RsAssign i j) l) -> l <> [] -> rs_run (mkRsm 0 []) l = Ok s ->
  Z.of_nat (length l) <= 2147483647 ->
  exists newest, 0 <= newest < Z.of_nat (length (numbers s)) /\
    forall js, NoDup js -> (forall j, In j js -> 0 <= j < Z.of_nat (length (numbers s)) /\ j <> newest) ->
    let k := Z.of_nat (length js) in
    exists v w, rs_score rops s newest k = Ok v /\ (forall j, In j js -> rs_score rops s j k = Ok w) /\
      (v + IZR k * w = 1)%R /\ (0 <= v <= 1)%R /\ (0 <= w <= 1)%R.
Proof.
  intros l s Ha Hl R Hb. destruct (rs_inv l s Ha R) as [I1 [I2 [I3 I4]]]. destruct (I3 Hl) as [i [J1 J2]].
  assert (Li : (i < length (numbers s))%nat) by (apply nth_error_Some; congruence).
  exists (Z.of_nat i). split; [lia|]. intros js Nd Hj k.
  assert (Hk : k + 1 <= total_count s).
  { assert (length (i :: map Z.to_nat js) <= length (seq 0 (length (numbers s))))%nat.
    { apply NoDup_incl_length.
      - constructor.
        + intros Hi. apply in_map_iff in Hi. destruct Hi as [x [E Hx]]. destruct (Hj x Hx). lia.
        + clear - Nd Hj. induction Nd as [|x t Hx Nd IH]; cbn [map]; constructor.
          * intros Hi. apply in_map_iff in Hi. destruct Hi as [y [E Hy]].
            assert (0 <= x) by (apply (Hj x); now left). assert (0 <= y) by (apply (Hj y); now right).
            assert (x = y) by lia. subst. contradiction.
          * apply IH. intros j Hjt. apply Hj. now right.
      - intros x [<-|Hx]; apply in_seq; [lia|]. apply in_map_iff in Hx. destruct Hx as [y [<- Hy]]. destruct (Hj y Hy). lia. }
    cbn [length] in H. rewrite map_length, seq_length in H. unfold k. lia. }
  assert (Tp : 0 < total_count s) by lia. assert (TR : (0 < IZR (total_count s))%R) by now apply IZR_lt.
  assert (K0 : 0 <= k) by (unfold k; lia).
  exists (IZR (total_count s - k) / IZR (total_count s))%R, (1 / IZR (total_count s))%R.
  split; [|split; [|split; [|split]]].
  - unfold rs_score. assert (Q : rd (numbers s) (Z.of_nat i) = Ok (total_count s)).
    { apply rd_ok_iff. split; [lia|]. now rewrite Nat2Z.id. }
    rewrite Q. cbn [bind]. rewrite Z.eqb_refl. rewrite sint_ok by lia. reflexivity.
  - intros j Hin. destruct (Hj j Hin) as [Hr Hne]. unfold rs_score.
    destruct (rd_in_bounds _ (numbers s) j Hr) as [v Q]. rewrite Q. cbn [bind].
    destruct (Z.eqb_spec (total_count s) v) as [E|E]; [|reflexivity].
    apply rd_ok_iff in Q. destruct Q as [_ Q]. rewrite <- E in Q. apply J2 in Q. lia.
  - rewrite minus_IZR. field. lra.
  - assert (0 <= IZR (total_count s - k) <= IZR (total_count s))%R by (split; apply IZR_le; lia).
    split; apply Rmult_le_reg_r with (IZR (total_count s)); auto; field_simplify; lra.
  - assert (1 <= IZR (total_count s))%R by (apply IZR_le; lia).
    split; apply Rmult_le_reg_r with (IZR (total_count s)); auto; field_simplify; lra.
Qed.
Print Assumptions reservoir_metric_distribution.

Example reservoir_metric_ex :
  exists s, rs_run (mkRsm 0 []) [RsNew; RsNew; RsNew; RsReset 0; RsReset 0] = Ok s /\
    gives (rs_score dops s 0 1) (ddiv (dofZ 4) (dofZ 5)) = true /\ gives (rs_score dops s 1 1) (ddiv (dofZ 1) (dofZ 5)) = true.
Proof. eexists. split; [vm_compute; reflexivity|]. split; vm_compute; reflexivity. Qed.

(** C36. Assigning the newest metric to another object breaks this: two scores of 2/3. *)
Theorem reservoir_metric_assign_refuted :
  exists l s, rs_run (mkRsm 0 []) l = Ok s /\ Z.of_nat (length (numbers s)) = 2 /\
    exists v w, rs_score rops s 0 1 = Ok v /\ rs_score rops s 1 1 = Ok w /\ (v + w > 1)%R.
Proof.
  exists [RsNew; RsNew; RsReset 0; RsAssign 1 0]. eexists. split; [vm_compute; reflexivity|]. split; [reflexivity|].
  assert (E : forall O i, i = 0 \/ i = 1 -> rs_score O (mkRsm 3 [3; 3]) i 1 = Ok (ndiv O (nofZ O 2) (nofZ O 3))).
  { intros O i [-> | ->]; reflexivity. }
  exists (ndiv rops (nofZ rops 2) (nofZ rops 3)), (ndiv rops (nofZ rops 2) (nofZ rops 3)).
  split; [apply E; auto|]. split; [apply E; auto|]. cbn [ndiv nofZ rops]. lra.
Qed.
Print Assumptions reservoir_metric_assign_refuted.
