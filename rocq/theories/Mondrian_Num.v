(** * Proofs for the Mondrian forest: binary64 and exact arithmetic *)
From Coq Require Import ZArith List Bool Lia Reals Lra Permutation.
From Flocq Require Import Core BinarySingleNaN.
From Verif Require Import CppBase CppFacts Dbl DblFacts NumOps NumFacts Utils_Model Utils_Spec Utils_Proofs MCNN_Num Mondrian_Model Mondrian_Spec Mondrian_Proofs.
Import ListNotations.
Local Open Scope Z_scope.

(** ** Binary64 *)
Ltac no_nan := match goal with H : not_nan B754_nan |- _ => exfalso; apply H; reflexivity end.
Lemma finite_key : forall x : dbl, is_finite x = true -> not_nan x /\ dkey x = B2R x.
Proof. intros x H. split; [intros ->; discriminate|]. destruct x; try discriminate; reflexivity. Qed.
Lemma dadd_nan : forall x y : dbl, is_finite y = true -> not_nan x -> not_nan (dadd x y).
Proof.
  intros x y Fy Nx. destruct (is_finite x) eqn:Fx.
  - pose proof (Bplus_correct 53 1024 Hprec64 Hmax64 mode_NE x y Fx Fy) as C.
    change (Bplus mode_NE x y) with (dadd x y) in C.
    destruct (Rlt_bool _ _); intros E; rewrite E in C; [destruct C as [_ [C _]]; discriminate|]. destruct C as [C _]. destruct (Bsign x); discriminate.
  - destruct x as [s|s| |s m e He]; try discriminate; [|no_nan]. destruct y; try discriminate; intros E; discriminate.
Qed.
Lemma dsub_nan : forall x y : dbl, is_finite x = true -> is_finite y = true -> not_nan (dsub x y).
Proof.
  intros x y Fx Fy. pose proof (Bminus_correct 53 1024 Hprec64 Hmax64 mode_NE x y Fx Fy) as C.
  change (Bminus mode_NE x y) with (dsub x y) in C.
  destruct (Rlt_bool _ _); intros E; rewrite E in C; [destruct C as [_ [C _]]; discriminate|]. destruct C as [C _]. destruct (Bsign x); discriminate.
Qed.
Lemma dmul_nan : forall x y : dbl, is_finite x = true -> B2R x <> 0%R -> not_nan y -> not_nan (dmul x y).
Proof.
  intros x y Fx Zx Ny. destruct x as [s|s| |s m e He]; try discriminate; [now elim Zx|].
  destruct y as [s'|s'| |s' m' e' He']; [discriminate|discriminate|no_nan|].
  pose proof (Bmult_correct 53 1024 Hprec64 Hmax64 mode_NE (B754_finite s m e He) (B754_finite s' m' e' He')) as C.
  match type of C with context [Bmult ?a ?b ?c] => change (Bmult a b c) with (dmul b c) in C end.
  destruct (Rlt_bool _ _); intros E; rewrite E in C; [destruct C as [_ [C _]]; discriminate|]. destruct (xorb _ _); discriminate.
Qed.
Lemma dadd_grows : forall p e : dbl, dle (dofZ 0) e = true -> not_nan (dadd p e) -> dle p (dadd p e) = true.
Proof.
  intros p e He Ns. apply dle_iff in He. destruct He as [_ [Ne He]]. pose proof (bpow_gt_0 radix2 1024) as P0.
  assert (Np : not_nan p) by (intros ->; apply Ns; destruct e; reflexivity).
  change (dkey (dofZ 0)) with 0%R in He.
  apply dle_iff. split; [exact Np|]. split; [exact Ns|].
  destruct (is_finite p) eqn:Fp.
  - destruct (is_finite e) eqn:Fe.
    + destruct (finite_key p Fp) as [_ ->]. destruct (finite_key e Fe) as [_ Ke]. rewrite Ke in He.
      pose proof (Bplus_correct 53 1024 Hprec64 Hmax64 mode_NE p e Fp Fe) as C.
      change (Bplus mode_NE p e) with (dadd p e) in C. change (round_mode mode_NE) with ZnearestE in C.
      destruct (Rlt_bool_spec (Rabs (rnd64 (B2R p + B2R e))) (bpow radix2 1024)) as [B|B].
      * destruct C as [C1 [C2 _]]. destruct (finite_key _ C2) as [_ ->]. rewrite C1. rewrite <- (rnd_dbl p) at 1. apply rnd_le. lra.
      * destruct C as [C1 C2]. destruct (Bsign p) eqn:Sp.
        -- exfalso. assert (Z0 : B2R e = 0%R).
           { destruct e as [s|s| |s m x Hx]; try discriminate; [reflexivity|]. cbn [Bsign] in C2. subst s. cbn [B2R] in He.
             assert (F2R (Float radix2 (cond_Zopp true (Zpos m)) x) < 0)%R by (apply F2R_lt_0; reflexivity). lra. }
           rewrite Z0, Rplus_0_r, rnd_dbl in B. pose proof (abs_B2R_lt_emax 53 1024 p). lra.
        -- assert (E : dadd p e = B754_infinity false).
           { destruct (dadd p e); cbn in C1; try discriminate. injection C1 as <-. reflexivity. }
           rewrite E. cbn [dkey]. pose proof (abs_B2R_lt_emax 53 1024 p) as A. apply Rabs_lt_inv in A. lra.
    + destruct e as [s|s| |s m x Hx]; try discriminate; [|no_nan]. destruct s; [cbn [dkey] in He; lra|].
      replace (dadd p (B754_infinity false)) with (B754_infinity false : dbl) by (destruct p; try discriminate; reflexivity).
      cbn [dkey]. destruct (finite_key p Fp) as [_ ->]. pose proof (abs_B2R_lt_emax 53 1024 p) as A. apply Rabs_lt_inv in A. lra.
  - destruct p as [s|s| |s m x Hx]; try discriminate; [|no_nan]. destruct s.
    + cbn [dkey]. destruct (is_finite (dadd (B754_infinity true) e)) eqn:F.
      * destruct (finite_key _ F) as [_ ->]. pose proof (abs_B2R_lt_emax 53 1024 (dadd (B754_infinity true) e)) as A. apply Rabs_lt_inv in A. lra.
      * destruct (dadd (B754_infinity true) e) as [s|s| |s m x Hx]; try discriminate; [|no_nan]. destruct s; cbn [dkey]; lra.
    + replace (dadd (B754_infinity false) e) with (B754_infinity false : dbl); [lra|].
      destruct e as [s|[|]| |s m x Hx]; try reflexivity; [cbn [dkey] in He; lra|no_nan].
Qed.
Lemma dsub_pos : forall x y : dbl, dlt (dofZ 0) (dsub x y) = true -> dlt y x = true.
Proof.
  intros x y H. pose proof H as H0. apply dlt_iff in H. destruct H as [_ [N H]]. change (dkey (dofZ 0)) with 0%R in H.
  destruct (is_finite x) eqn:Fx, (is_finite y) eqn:Fy.
  - destruct (finite_key x Fx) as [Nx Kx]. destruct (finite_key y Fy) as [Ny Ky]. apply dlt_iff. split; [exact Ny|]. split; [exact Nx|]. rewrite Kx, Ky.
    pose proof (Bminus_correct 53 1024 Hprec64 Hmax64 mode_NE x y Fx Fy) as C.
    change (Bminus mode_NE x y) with (dsub x y) in C. change (round_mode mode_NE) with ZnearestE in C.
    destruct (Rlt_le_dec (B2R y) (B2R x)) as [L|L]; [exact L|exfalso].
    assert (G : (rnd64 (B2R x - B2R y) <= 0)%R) by (rewrite <- rnd_0; apply rnd_le; lra).
    destruct (Rlt_bool_spec (Rabs (rnd64 (B2R x - B2R y))) (bpow radix2 1024)) as [B|B].
    + destruct C as [C1 [C2 _]]. destruct (finite_key _ C2) as [_ K]. rewrite K, C1 in H. lra.
    + destruct C as [C1 C2]. destruct (Bsign x) eqn:Sx.
      * assert (E : dsub x y = B754_infinity true) by (destruct (dsub x y); cbn in C1; try discriminate; injection C1 as <-; reflexivity).
        rewrite E in H. cbn [dkey] in H. pose proof (bpow_gt_0 radix2 1024). lra.
      * assert (Px : (0 <= B2R x)%R).
        { destruct x as [s|s| |s m e He]; try discriminate; cbn [B2R]; [lra|]. cbn [Bsign] in Sx. subst s. apply F2R_ge_0. cbn. lia. }
        assert (Py : (B2R y <= 0)%R).
        { assert (Sy : Bsign y = true) by (destruct (Bsign y); [reflexivity|discriminate]).
          destruct y as [s|s| |s m e He]; try discriminate; cbn [B2R]; [lra|]. cbn [Bsign] in Sy. subst s. apply F2R_le_0. cbn. lia. }
        assert (Z0 : (B2R x - B2R y = 0)%R) by lra. rewrite Z0, rnd_0, Rabs_R0 in B. pose proof (bpow_gt_0 radix2 1024). lra.
  - destruct y as [s|[|]| |s m e He]; try discriminate; destruct x as [s'|s'| |s' m' e' He']; try discriminate; try reflexivity.
  - destruct x as [s|[|]| |s m e He]; try discriminate; destruct y as [s'|s'| |s' m' e' He']; try discriminate; try reflexivity.
  - destruct x as [s|[|]| |s m e He]; try discriminate; destruct y as [s'|[|]| |s' m' e' He']; try discriminate; try reflexivity.
Qed.
(** With one feature the pick cannot go wrong. *)
Lemma sure_one : sure_pick dops ddraw 1.
Proof.
  intros lo hi x u Hu w sum Hs. subst sum. change (zrange 1) with [0] in w. cbn [map] in w. set (y := dist dops (lo 0) (hi 0) (x 0)) in w.
  assert (Out : dlt (hi 0) (x 0) = true \/ dlt (x 0) (lo 0) = true).
  { unfold dist in y. cbn [nlt nadd nsub nofZ dops num] in y.
    destruct (dlt (dofZ 0) (dsub (lo 0) (x 0))) eqn:E1; [right; now apply dsub_pos|].
    destruct (dlt (dofZ 0) (dsub (x 0) (hi 0))) eqn:E2; [left; now apply dsub_pos|].
    exfalso. subst w y. vm_compute in Hs. discriminate. }
  assert (T : exists p, turn_array_into_probability dops w 1 (fold_left (nadd dops) w (nofZ dops 0)) = Ok p /\ length p = 1%nat).
  { unfold turn_array_into_probability. change (Z.to_nat 1) with 1%nat. change (1 - 1)%nat with 0%nat. cbn [forZ].
    subst w. cbn [rd Z.ltb Z.compare Z.to_nat nth_error fold_left].
    set (s := nadd dops (nofZ dops 0) y). destruct (nlt dops s (nofZ dops 0)); cbn [bind]; eexists; (split; [reflexivity|]); reflexivity. }
  destruct T as [p [T1 T2]]. destruct (pick_ok dops u p 1) as [i [P1 [P2 _]]]; [rewrite T2; reflexivity|].
  exists p, i. split; [exact T1|]. split; [exact P1|]. intros d Hd _. assert (d = 0) by lia. subst d. exact Out.
Qed.
Lemma laws_dops : forall fc, 1 <= fc <= 2147483647 -> laws dops dkey not_nan dfine ddraw fc.
Proof.
  intros fc Hfc. constructor; cbn [nlt nle neq nofZ nadd nmul nsub n2int dops].
  - exact dlt_iff.
  - exact dle_iff.
  - exact deq_iff.
  - split; [discriminate|reflexivity].
  - destruct (dofZ_exact (-1)) as [A B]; [lia|]. destruct (finite_key _ B) as [C D]. split; [exact C|]. rewrite D. exact A.
  - intros p e t He Ht. apply dadd_grows; [exact He|]. apply dlt_iff in Ht. tauto.
  - intros x Hx. now apply finite_key.
  - intros u lo hi [Fu Vu] Fl Fh _. apply dadd_nan; [exact Fl|]. apply dmul_nan; [exact Fu|lra|]. now apply dsub_nan.
  - intros u [Fu Vu]. apply trunc_unit_open; [|exact Hfc]. split; [exact Fu|lra].
Qed.

(** ** Exact arithmetic *)
Lemma Rle_iff : forall x y, Rle_bool x y = true <-> (x <= y)%R.
Proof. intros x y. destruct (Rle_bool_spec x y); split; intros; auto; try discriminate. lra. Qed.
Lemma Req_iff : forall x y, Req_bool x y = true <-> x = y.
Proof. intros x y. destruct (Req_bool_spec x y); split; intros; auto; first [discriminate|contradiction]. Qed.
Lemma laws_rops : forall fc, 1 <= fc <= 2147483647 -> laws rops (fun x => x) (fun _ => True) rfine rdraw fc.
Proof.
  intros fc Hfc. constructor; cbn [nlt nle neq nofZ nadd nmul nsub n2int rops num].
  - intros x y. rewrite Rlt_iff. tauto.
  - intros x y. rewrite Rle_iff. tauto.
  - intros x y. rewrite Req_iff. tauto.
  - auto.
  - auto.
  - intros p e t. rewrite !Rle_iff. intros; lra.
  - auto.
  - auto.
  - intros u Hu. assert (T : 0 <= Ztrunc (u * IZR fc) < fc).
    { assert (1 <= IZR fc)%R by (apply IZR_le; lia). rewrite Ztrunc_floor by (unfold rdraw in Hu; nra). apply Zfloor_range_lt; unfold rdraw in Hu; nra. }
    exists (Ztrunc (u * IZR fc)). split; [|exact T]. unfold in_int. rewrite (proj2 (Z.leb_le _ _)), (proj2 (Z.leb_le _ _)) by lia. reflexivity.
Qed.
Lemma turn_given : forall (w : list R), w <> [] -> (0 <= fold_left Rplus w 0)%R ->
  turn_array_into_probability rops w (Z.of_nat (length w)) (fold_left Rplus w 0%R) = turn_array_into_probability rops w (Z.of_nat (length w)) (-1)%R.
Proof.
  intros w Hw Hs. unfold turn_array_into_probability. change (num rops) with R. rewrite !Nat2Z.id. pose proof (sum_fold rops w) as E. change (num rops) with R in E. cbn [nlt nofZ rops] in *.
  rewrite (Rlt_bool_false _ _ Hs), (Rlt_bool_true (-1) 0) by lra. rewrite E. reflexivity.
Qed.
Lemma rdist_pos : forall lo hi x, (0 <= dist rops lo hi x)%R /\ ((0 < dist rops lo hi x)%R -> (hi < x \/ x < lo)%R).
Proof.
  intros lo hi x. unfold dist. cbn [nadd nlt nsub nofZ rops num].
  destruct (Rlt_bool_spec 0 (lo - x)), (Rlt_bool_spec 0 (x - hi)); split; intros; lra.
Qed.
Lemma sure_rops : forall fc, 1 <= fc -> sure_pick rops rdraw fc.
Proof.
  intros fc Hfc lo hi x u Hu w sum Hs. cbn [neq nofZ rops] in Hs. change (num rops) with R in *.
  assert (Lw : length w = Z.to_nat fc) by (unfold w; now rewrite map_length, zrange_length).
  assert (Pw : Forall (fun y => 0 <= y)%R w).
  { apply Forall_forall. intros y Hy. unfold w in Hy. apply in_map_iff in Hy. destruct Hy as [d [<- _]]. apply rdist_pos. }
  assert (Es : sum = partial_sum w (length w)) by (unfold partial_sum; now rewrite firstn_all).
  assert (Ps : (0 <= sum)%R).
  { unfold sum. cbn [nadd nofZ rops]. clear - Pw. assert (G : forall a, (0 <= a -> 0 <= fold_left Rplus w a)%R).
    { induction Pw as [|y l Hy Hl IH]; intros a Ha; cbn; [exact Ha|]. apply IH. lra. }
    apply G. lra. }
  assert (Ns : sum <> 0%R) by (intros E; rewrite E, Req_bool_true in Hs; [discriminate|reflexivity]).
  destruct (pick_real w u Pw) as [p [i [P1 [P2 [P3 [_ P5]]]]]]; [apply Rlt_le_trans with sum; [|apply Req_le, Es]; destruct (Rle_lt_or_eq_dec _ _ Ps) as [|E]; [assumption|now symmetry in E]|unfold rdraw in Hu; lra|].
  rewrite <- turn_given in P1; [|intros E; rewrite E in Lw; cbn in Lw; lia|exact Ps].
  rewrite Lw, Z2Nat.id in P1, P2, P3 by lia.
  exists p, i. split; [exact P1|]. split; [exact P2|]. intros d _ Ed. rewrite (Ed P3).
  assert (E : nth (Z.to_nat i) w 0%R = dist rops (lo i) (hi i) (x i)).
  { pose proof (rd_zrange _ (fun d => dist rops (lo d) (hi d) (x d)) fc i P3) as E. fold w in E. apply rd_ok_iff in E. destruct E as [_ E].
    now apply nth_error_nth with (d := 0%R) in E. }
  rewrite E in P5. apply rdist_pos in P5. cbn [nlt rops]. rewrite !Rlt_iff. exact P5.
Qed.
Lemma grows_separated : forall pt t t', grows rops rfine rdraw pt t t' -> separated rops t -> separated rops t'.
Proof.
  intros pt t t' G. induction G as [i pts|i d v l l' r C G IH|i d v l r r' C G IH|a b d u lo t Hu _ _ C H|a b d u hi t Hu _ _ C H]; intros S;
    cbn [separated points] in *; cbn [nle nlt nadd nmul nsub rops num] in *.
  - exact I.
  - destruct S as [S1 [S2 [S3 S4]]]. split; [|auto]. intros p Hp. apply (Permutation_in _ (grows_points _ _ _ _ _ _ G)) in Hp. destruct Hp as [<-|Hp]; auto.
  - destruct S as [S1 [S2 [S3 S4]]]. split; [auto|]. split; [|auto]. intros p Hp. apply (Permutation_in _ (grows_points _ _ _ _ _ _ G)) in Hp. destruct Hp as [<-|Hp]; auto.
  - apply Rlt_iff in C. unfold rdraw in Hu. split; [|split; [|auto]].
    + intros p Hp. specialize (H p Hp). rewrite Rle_iff in *. nra.
    + intros p [<-|[]]. apply Rlt_iff. nra.
  - apply Rlt_iff in C. unfold rdraw in Hu. split; [|split; [|auto]].
    + intros p [<-|[]]. apply Rle_iff. nra.
    + intros p Hp. specialize (H p Hp). rewrite Rle_iff in H. apply Rlt_iff. nra.
Qed.
