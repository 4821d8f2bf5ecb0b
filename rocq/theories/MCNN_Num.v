(** * MC-NN over doubles and over reals *)
From Coq Require Import ZArith List Bool Lia Reals Psatz.
From Flocq Require Import Core BinarySingleNaN.
From Verif Require Import CppBase CppFacts Dbl DblFacts NumOps NumFacts LTC_Proofs Utils_Spec Utils_Proofs.
From Verif Require Import Perceptron_Proofs MCNN_Model MCNN_Spec MCNN_Proofs.
Import ListNotations.
Local Open Scope Z_scope.

(** ** The clock *)
Lemma timed_dops : timed dops (2 ^ 26).
Proof.
  split; [|split].
  - cbn [nadd nofZ dops]. destruct (dofZ_exact (-1)) as [Ra Fa]; [lia|]. destruct (dofZ_exact 1) as [Rb Fb]; [lia|].
    vm_compute. reflexivity.
  - intros a b Ha Hb Hab. destruct dops_exact as [A _]. apply A; auto.
    replace (2 ^ 26 * 2 ^ 26) with (2 ^ 52) in Hab by reflexivity. assert (2 ^ 52 <= 2 ^ 53) by lia. lia.
  - intros a n t Hn Htt Ha. cbn [n2int ndiv nofZ dops].
    assert (B : a <= 2 ^ 53) by nia.
    destruct (ddivZ a n) as [R1 F1]; [lia|lia|lia|].
    assert (Q : (IZR 0 <= B2R (ddiv (dofZ a) (dofZ n)) <= IZR t)%R).
    { rewrite R1. split; [apply rnd_ge_Z; [lia|apply quot_ge_Z; lia]|apply rnd_le_Z; [lia|apply quot_le_Z; lia]]. }
    pose proof (Ztrunc_between _ _ _ Q) as Z. rewrite d2int_ok2 by (auto; lia). eauto.
Qed.
Lemma timed_rops : forall N, N <= 2 ^ 31 -> timed rops N.
Proof.
  intros N HN. split; [|split].
  - cbn [nadd nofZ rops]. lra.
  - intros. cbn [nadd nofZ rops]. now rewrite plus_IZR.
  - intros a n t Hn Htt Ha. cbn [n2int ndiv nofZ rops].
    assert (Q : (IZR 0 <= IZR a / IZR n <= IZR t)%R) by (split; [apply quot_ge_Z|apply quot_le_Z]; lia).
    apply Ztrunc_between in Q. unfold in_int.
    rewrite (proj2 (Z.leb_le _ _)) by lia. rewrite (proj2 (Z.leb_le _ _)) by lia. cbn [andb]. eauto.
Qed.

(** ** The order *)
Lemma dcompare_key : forall x y : dbl, not_nan x -> not_nan y -> Bcompare x y = Some (Rcompare (dkey x) (dkey y)).
Proof.
  intros x y Nx Ny. pose proof (bpow_gt_0 radix2 1024) as P.
  pose proof (abs_B2R_lt_emax 53 1024 x) as Bx. pose proof (abs_B2R_lt_emax 53 1024 y) as By.
  apply Rabs_lt_inv in Bx. apply Rabs_lt_inv in By.
  destruct (is_finite x) eqn:Fx, (is_finite y) eqn:Fy.
  - rewrite Bcompare_correct by auto. destruct x; try discriminate; destruct y; try discriminate; reflexivity.
  - destruct y as [| [|] | |]; try discriminate; [| |now contradiction Ny]; cbn [dkey].
    + rewrite Rcompare_Gt by (destruct x; try discriminate; cbn [dkey]; lra). destruct x; try discriminate; reflexivity.
    + rewrite Rcompare_Lt by (destruct x; try discriminate; cbn [dkey]; lra). destruct x; try discriminate; reflexivity.
  - destruct x as [| [|] | |]; try discriminate; [| |now contradiction Nx]; cbn [dkey].
    + rewrite Rcompare_Lt by (destruct y; try discriminate; cbn [dkey]; lra). destruct y; try discriminate; reflexivity.
    + rewrite Rcompare_Gt by (destruct y; try discriminate; cbn [dkey]; lra). destruct y; try discriminate; reflexivity.
  - destruct x as [| [|] | |]; try discriminate; try (now contradiction Nx);
    destruct y as [| [|] | |]; try discriminate; try (now contradiction Ny); cbn [dkey];
    first [rewrite Rcompare_Eq by reflexivity|rewrite Rcompare_Lt by lra|rewrite Rcompare_Gt by lra]; reflexivity.
Qed.
Lemma nan_dec : forall x : dbl, {x = dnan} + {not_nan x}.
Proof. intros x. destruct x; [right| right | left; reflexivity| right]; discriminate. Qed.
Lemma dlt_def : forall x y : dbl, dlt x y = match Bcompare x y with Some Lt => true | _ => false end.
Proof. reflexivity. Qed.
Lemma dle_def : forall x y : dbl, dle x y = match Bcompare x y with Some Lt | Some Eq => true | _ => false end.
Proof. reflexivity. Qed.
Lemma deq_def : forall x y : dbl, deq x y = match Bcompare x y with Some Eq => true | _ => false end.
Proof. reflexivity. Qed.
Lemma compare_nan : forall x y : dbl, Bcompare x y <> None -> not_nan x /\ not_nan y.
Proof.
  intros x y H. split; intros E; apply H; rewrite E.
  - reflexivity.
  - destruct x as [[|]|[|]| |[|]]; reflexivity.
Qed.
Lemma dlt_iff : forall x y : dbl, dlt x y = true <-> not_nan x /\ not_nan y /\ (dkey x < dkey y)%R.
Proof.
  intros x y. rewrite dlt_def. split.
  - intros H. destruct (compare_nan x y) as [A B]; [destruct (Bcompare x y); [discriminate|discriminate H]|].
    rewrite dcompare_key in H by auto. split; [exact A|]. split; [exact B|].
    destruct (Rcompare_spec (dkey x) (dkey y)); try discriminate. assumption.
  - intros [A [B C]]. rewrite dcompare_key by auto. now rewrite Rcompare_Lt.
Qed.
Lemma dle_iff : forall x y : dbl, dle x y = true <-> not_nan x /\ not_nan y /\ (dkey x <= dkey y)%R.
Proof.
  intros x y. rewrite dle_def. split.
  - intros H. destruct (compare_nan x y) as [A B]; [destruct (Bcompare x y); [discriminate|discriminate H]|].
    rewrite dcompare_key in H by auto. split; [exact A|]. split; [exact B|].
    destruct (Rcompare_spec (dkey x) (dkey y)); try discriminate; lra.
  - intros [A [B C]]. rewrite dcompare_key by auto. destruct (Rcompare_spec (dkey x) (dkey y)); auto. lra.
Qed.
Lemma deq_iff : forall x y : dbl, deq x y = true <-> not_nan x /\ not_nan y /\ dkey x = dkey y.
Proof.
  intros x y. rewrite deq_def. split.
  - intros H. destruct (compare_nan x y) as [A B]; [destruct (Bcompare x y); [discriminate|discriminate H]|].
    rewrite dcompare_key in H by auto. split; [exact A|]. split; [exact B|].
    destruct (Rcompare_spec (dkey x) (dkey y)); try discriminate; assumption.
  - intros [A [B C]]. rewrite dcompare_key by auto. now rewrite Rcompare_Eq.
Qed.
Lemma dlt_not : forall x y : dbl, dlt x y = false <-> ~ (not_nan x /\ not_nan y /\ (dkey x < dkey y)%R).
Proof. intros x y. rewrite <- dlt_iff. now rewrite not_true_iff_false. Qed.

Lemma ordered_dops : ordered dops.
Proof.
  split; [|split]; cbn [nlt nle dops].
  - intros a. apply dlt_not. intros [_ [_ H]]. lra.
  - intros a b c. rewrite !dlt_iff. intros [A [B C]] [D [E F]]. repeat split; auto. lra.
  - intros a b c. rewrite !dlt_iff, dle_iff. intros [A [B C]] [D [E F]]. repeat split; auto. lra.
Qed.
Lemma comparable_dops : comparable dops.
Proof.
  split; cbn [nlt nle neq dops].
  - intros a b c. rewrite !dlt_iff, deq_iff. intros [A [B C]] [D [E F]]. repeat split; auto. lra.
  - intros a b c. rewrite !dlt_iff, !dlt_not, deq_iff. intros [A [B C]] [D [E F]] G H. repeat split; auto.
    destruct (Rtotal_order (dkey a) (dkey b)) as [X|[X|X]]; [exfalso; apply G; auto|auto|exfalso; apply H; auto].
Qed.
Lemma Rlt_iff : forall x y, Rlt_bool x y = true <-> (x < y)%R.
Proof. intros x y. destruct (Rlt_bool_spec x y); split; intros; auto; try discriminate. lra. Qed.
Lemma Rlt_not : forall x y, Rlt_bool x y = false <-> (y <= x)%R.
Proof. intros x y. destruct (Rlt_bool_spec x y); split; intros; auto; try discriminate. lra. Qed.
Lemma ordered_rops : ordered rops.
Proof.
  split; [|split]; cbn [nlt nle rops].
  - intros a. apply Rlt_not. lra.
  - intros a b c. rewrite !Rlt_iff. lra.
  - intros a b c. rewrite !Rlt_iff. destruct (Rle_bool_spec a b); [lra|discriminate].
Qed.
Lemma comparable_rops : comparable rops.
Proof.
  split; cbn [nlt nle neq rops].
  - intros a b c. rewrite !Rlt_iff. destruct (Req_bool_spec b a); [lra|discriminate].
  - intros a b c. rewrite !Rlt_iff, !Rlt_not. intros. apply Req_bool_true. lra.
Qed.

(** ** The point just learnt is at distance zero *)
Lemma rnd_dbl : forall x : dbl, rnd64 (B2R x) = B2R x.
Proof. intros x. apply rnd_id. apply generic_format_B2R. Qed.
Lemma div_one : forall x : dbl, is_finite x = true -> B2R (ddiv x (dofZ 1)) = B2R x /\ is_finite (ddiv x (dofZ 1)) = true.
Proof.
  intros x F. destruct (dofZ_exact 1) as [R1 F1]; [lia|].
  pose proof (Bdiv_correct 53 1024 Hprec64 Hmax64 mode_NE x (dofZ 1)) as C.
  change (round_mode mode_NE) with ZnearestE in C. rewrite R1 in C. specialize (C ltac:(lra)).
  replace (B2R x / 1)%R with (B2R x) in C by field.
  change (round radix2 (SpecFloat.fexp 53 1024) ZnearestE (B2R x)) with (rnd64 (B2R x)) in C. rewrite rnd_dbl in C.
  rewrite Rlt_bool_true in C by apply abs_B2R_lt_emax. destruct C as [C1 [C2 _]].
  split; [exact C1|]. change (is_finite (ddiv x (dofZ 1)) = is_finite x) in C2. now rewrite C2.
Qed.
Lemma huge_0 : (Rabs 0 <= huge)%R.
Proof. rewrite Rabs_R0. apply bpow_ge_0. Qed.
Lemma distance_self : forall (p : list dbl) n, (forall k, (k < n)%nat -> is_finite (nth k p dnan) = true) -> (n <= length p)%nat ->
  B2R (distance2 dops (coordinate dops p) (fun k => ndiv dops (coordinate dops p k) (nofZ dops 1)) n) = 0%R /\
  is_finite (distance2 dops (coordinate dops p) (fun k => ndiv dops (coordinate dops p k) (nofZ dops 1)) n) = true.
Proof.
  intros p n. induction n as [|n IH]; intros F L; cbn [distance2].
  - cbn [nofZ dops]. destruct (dofZ_exact 0) as [R0 F0]; [lia|]. auto.
  - destruct IH as [I1 I2]; [intros; apply F; lia|lia|].
    set (s := distance2 _ _ _ _) in *. cbn [nadd nmul nsub ndiv nofZ dops].
    assert (Fn : is_finite (coordinate dops p n) = true).
    { unfold coordinate. cbn [nofZ dops]. specialize (F n ltac:(lia)).
      etransitivity; [|exact F]. f_equal. apply nth_indep. change (num dops) with dbl. lia. }
    set (x := coordinate dops p n) in *. change (num dops) with dbl in *.
    destruct (div_one x Fn) as [D1 D2].
    destruct (dsub_R x (ddiv x (dofZ 1))) as [S1 S2]; auto; [rewrite D1, Rminus_diag_eq by reflexivity; exact huge_0|].
    rewrite D1, Rminus_diag_eq, rnd_0 in S1 by reflexivity.
    destruct (dmul_R _ _ S2 S2) as [M1 M2]; [rewrite S1, Rmult_0_l; exact huge_0|]. rewrite S1, Rmult_0_l, rnd_0 in M1.
    destruct (dadd_R s _ I2 M2) as [A1 A2]; [rewrite I1, M1, Rplus_0_l; exact huge_0|]. rewrite I1, M1, Rplus_0_l, rnd_0 in A1.
    auto.
Qed.

(** ** Means and variances over the reals *)
Lemma rtotal_sum : forall ps p k, sum_of rops p ps k = rtotal (map (fun q => nth k q 0%R) (p :: ps)).
Proof.
  intros ps p k. unfold sum_of, coordinate. cbn [nadd nofZ rops map rtotal fold_right].
  change (num rops) with R in *. generalize (nth k p 0%R) as a. revert p. induction ps as [|q ps IH]; intros p a; cbn [fold_left map fold_right]; change (num rops) with R in *; [ring|].
  rewrite IH by exact p. ring.
Qed.
Lemma rtotal_square : forall ps p k, square_of rops p ps k = rtotal (map (fun q => nth k q 0%R ^ 2)%R (p :: ps)).
Proof.
  intros ps p k. unfold square_of, coordinate. cbn [nadd nmul nofZ rops map rtotal fold_right].
  change (num rops) with R in *. replace (nth k p 0 ^ 2)%R with (nth k p 0 * nth k p 0)%R by ring.
  generalize (nth k p 0 * nth k p 0)%R as a. revert p. induction ps as [|q ps IH]; intros p a; cbn [fold_left map fold_right]; change (num rops) with R in *; [ring|].
  rewrite IH by exact p. ring.
Qed.
Lemma variance_shift : forall (l : list (list R)) k m,
  rtotal (map (fun p => (nth k p 0 - m) ^ 2)%R l) =
  (rtotal (map (fun p => nth k p 0 ^ 2)%R l) - 2 * m * rtotal (map (fun p => nth k p 0%R) l) + INR (length l) * m ^ 2)%R.
Proof.
  intros l k m. unfold rtotal. induction l as [|p l IH]; [cbn; ring|].
  cbn [map fold_right length]. rewrite IH, S_INR. ring.
Qed.
Lemma var_real : forall (l : list (list R)) k, l <> [] ->
  (rtotal (map (fun p => nth k p 0 ^ 2)%R l) / INR (length l) - (rtotal (map (fun p => nth k p 0%R) l) / INR (length l)) ^ 2)%R = variance_of l k.
Proof.
  intros l k Nl. unfold variance_of. rewrite variance_shift. unfold mean_of.
  assert (0 < INR (length l))%R by (apply lt_0_INR; destruct l; [congruence|cbn; lia]). field. lra.
Qed.
Lemma length_INR : forall (p : list R) ps, IZR (Z.of_nat (length ps) + 1) = INR (length (p :: ps)).
Proof. intros p ps. cbn [length]. rewrite S_INR, INR_IZR_INZ, plus_IZR. reflexivity. Qed.

Lemma var_stats : forall fc h c p ps, stats rops fc h c p ps ->
  forall k, (k < fc)%nat -> var rops c k = variance_of (p :: ps) k.
Proof.
  intros fc h c p ps [_ [_ [S3 [S4 [S5 _]]]]] k Hk. unfold var. rewrite S3, S4, S5 by exact Hk. cbn [ndiv nsub nmul nofZ rops].
  change (num rops) with R in *. rewrite rtotal_sum, rtotal_square, (length_INR p), <- var_real by discriminate.
  change (num rops) with R in *. ring.
Qed.
Lemma mean_stats : forall fc h c p ps, stats rops fc h c p ps ->
  forall k, (k < fc)%nat -> (coordinate rops (features_sum rops (fdouble rops) c) k / IZR (data_count rops (fdouble rops) c))%R = mean_of (p :: ps) k.
Proof.
  intros fc h c p ps [_ [_ [S3 [_ [S5 _]]]]] k Hk. rewrite S3, S5 by exact Hk. change (num rops) with R in *.
  rewrite rtotal_sum, (length_INR p). reflexivity.
Qed.
Lemma dist_stats : forall fc h c p ps x, stats rops fc h c p ps ->
  dist rops fc x c = distance2 rops (coordinate rops x) (mean_of (p :: ps)) fc.
Proof.
  intros fc h c p ps x S. unfold dist.
  assert (G : forall n, (n <= fc)%nat ->
    distance2 rops (coordinate rops x) (fun k => ndiv rops (coordinate rops (features_sum rops (fdouble rops) c) k) (nofZ rops (data_count rops (fdouble rops) c))) n =
    distance2 rops (coordinate rops x) (mean_of (p :: ps)) n).
  { induction n as [|n IH]; intros Hn; [reflexivity|]. cbn [distance2]. rewrite IH by lia.
    pose proof (mean_stats _ _ _ _ _ S n Hn) as M. cbn [ndiv nofZ rops] in *. change (num rops) with R in *. now rewrite M. }
  apply G. lia.
Qed.
