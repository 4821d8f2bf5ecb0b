(** * DblFacts: lemmas about binary64 *)
From Coq Require Import ZArith Reals Bool Lia Lra.
From Flocq Require Import Core BinarySingleNaN.
From Verif Require Import CppBase Dbl.
Local Open Scope Z_scope.

Notation fexp64 := (SpecFloat.fexp 53 1024).
Notation rnd64 := (round radix2 fexp64 ZnearestE).

#[export] Instance valid64 : Valid_exp fexp64.
Proof. change fexp64 with (FLT_exp (SpecFloat.emin 53 1024) 53). apply FLT_exp_valid. exact Hprec64. Qed.
#[export] Instance mono64 : Monotone_exp fexp64.
Proof. change fexp64 with (FLT_exp (SpecFloat.emin 53 1024) 53). apply FLT_exp_monotone. Qed.

Lemma format_Z : forall n, Z.abs n <= 2 ^ 53 -> generic_format radix2 fexp64 (IZR n).
Proof.
  intros n Hn. change fexp64 with (FLT_exp (SpecFloat.emin 53 1024) 53).
  destruct (Z.eq_dec (Z.abs n) (2 ^ 53)) as [E|E].
  - assert (H : generic_format radix2 (FLT_exp (SpecFloat.emin 53 1024) 53) (bpow radix2 53)).
    { apply generic_format_FLT_bpow; [exact Hprec64 | vm_compute; discriminate]. }
    destruct (Z.abs_eq_or_opp n) as [A|A].
    + replace n with (2 ^ 53) by lia. exact H.
    + replace n with (- 2 ^ 53) by lia. rewrite opp_IZR. apply generic_format_opp. exact H.
  - apply generic_format_FLT. apply FLT_spec with (Float radix2 n 0).
    + unfold F2R; cbn. ring.
    + cbn. change (Z.pow_pos 2 53) with (2 ^ 53). lia.
    + vm_compute. discriminate.
Qed.

Lemma bpow_emax_big : forall n, Z.abs n <= 2 ^ 53 -> (Rabs (IZR n) < bpow radix2 1024)%R.
Proof.
  intros n Hn. rewrite <- abs_IZR. apply Rle_lt_trans with (bpow radix2 53).
  - change (bpow radix2 53) with (IZR (2 ^ 53)). now apply IZR_le.
  - apply bpow_lt. lia.
Qed.

Lemma dofZ_exact : forall n, Z.abs n <= 2 ^ 53 ->
  B2R (dofZ n) = IZR n /\ is_finite (dofZ n) = true.
Proof.
  intros n Hn. unfold dofZ.
  generalize (binary_normalize_correct 53 1024 Hprec64 Hmax64 mode_NE n 0 false).
  cbn zeta. replace (F2R (Float radix2 n 0)) with (IZR n) by (unfold F2R; cbn; ring).
  rewrite round_generic; [|apply valid_rnd_N | now apply format_Z].
  rewrite Rlt_bool_true by now apply bpow_emax_big.
  intros [A [B _]]. auto.
Qed.

Lemma dlt_true : forall x y, is_finite x = true -> is_finite y = true ->
  (dlt x y = true <-> (B2R x < B2R y)%R).
Proof.
  intros. unfold dlt. rewrite Bltb_correct by auto.
  destruct (Rlt_bool_spec (B2R x) (B2R y)); split; intros; auto; try discriminate; lra.
Qed.

Lemma dle_true : forall x y, is_finite x = true -> is_finite y = true ->
  (dle x y = true <-> (B2R x <= B2R y)%R).
Proof.
  intros. unfold dle. rewrite Bleb_correct by auto.
  destruct (Rle_bool_spec (B2R x) (B2R y)); split; intros; auto; try discriminate; lra.
Qed.

(** Product of a number of [0,1] with a small integer. *)
Lemma dmul_unit : forall r n, is_finite r = true -> (0 <= B2R r <= 1)%R -> 0 <= n <= 2 ^ 53 ->
  B2R (dmul r (dofZ n)) = rnd64 (B2R r * IZR n) /\
  is_finite (dmul r (dofZ n)) = true /\
  (0 <= rnd64 (B2R r * IZR n) <= IZR n)%R.
Proof.
  intros r n Fr Hr Hn. destruct (dofZ_exact n) as [En Fn]; [lia|].
  assert (Hn0 : (0 <= IZR n)%R) by (apply IZR_le; lia).
  assert (R0 : (0 <= rnd64 (B2R r * IZR n))%R).
  { apply round_ge_generic; [exact valid64 | apply valid_rnd_N | apply generic_format_0 |].
    apply Rmult_le_pos; lra. }
  assert (R1 : (rnd64 (B2R r * IZR n) <= IZR n)%R).
  { apply round_le_generic; [exact valid64 | apply valid_rnd_N | apply format_Z; lia |].
    rewrite <- (Rmult_1_l (IZR n)) at 2. apply Rmult_le_compat_r; lra. }
  generalize (Bmult_correct 53 1024 Hprec64 Hmax64 mode_NE r (dofZ n)).
  rewrite En. change (round_mode mode_NE) with ZnearestE.
  rewrite Rlt_bool_true.
  - intros [A [B _]]. rewrite Fr, Fn in B. auto.
  - rewrite Rabs_pos_eq by auto. apply Rle_lt_trans with (1 := R1).
    pose proof (bpow_emax_big n ltac:(lia)) as H. rewrite Rabs_pos_eq in H; auto.
Qed.

Lemma pred_one : pred radix2 fexp64 1 = (1 - bpow radix2 (-53))%R.
Proof.
  rewrite pred_eq_pos by lra. unfold pred_pos.
  change 1%R with (bpow radix2 0). rewrite mag_bpow.
  rewrite Req_bool_true by reflexivity. reflexivity.
Qed.

(** A double below 1 is at most 1 - 2^-53. *)
Lemma below_one : forall r : dbl, (B2R r < 1)%R -> (B2R r <= 1 - bpow radix2 (-53))%R.
Proof.
  intros r Hr.
  assert (F1 : generic_format radix2 fexp64 1) by (apply (format_Z 1); vm_compute; discriminate).
  assert (H : (B2R r <= pred radix2 fexp64 1)%R).
  { apply pred_ge_gt; auto; [exact valid64 | apply generic_format_B2R]. }
  rewrite pred_one in H. exact H.
Qed.

(** Multiplying a double of [0,1) with an integer never rounds up to the integer. *)
Lemma dmul_unit_lt : forall (r : dbl) n, is_finite r = true -> (0 <= B2R r < 1)%R -> 1 <= n <= 2 ^ 53 ->
  (rnd64 (B2R r * IZR n) < IZR n)%R.
Proof.
  intros r n Fr Hr Hn.
  assert (Fn : generic_format radix2 fexp64 (IZR n)) by (apply format_Z; lia).
  assert (N1 : (1 <= IZR n)%R) by (apply IZR_le; lia).
  set (p := pred radix2 fexp64 (IZR n)).
  assert (Fp : generic_format radix2 fexp64 p) by (apply generic_format_pred; auto; exact valid64).
  assert (Sp : succ radix2 fexp64 p = IZR n) by (apply succ_pred; auto; exact valid64).
  assert (Pn : (p < IZR n)%R) by (apply pred_lt_id; lra).
  apply Rle_lt_trans with p; auto.
  apply round_N_le_midp; [exact valid64 | exact Fp |].
  rewrite Sp.
  pose proof (below_one r (proj2 Hr)) as Hb.
  assert (P0 : (1 - bpow radix2 (-53) <= p)%R).
  { rewrite <- pred_one. apply pred_le; auto; [exact valid64|].
    apply (format_Z 1); vm_compute; discriminate. }
  assert (B53 : (0 < bpow radix2 (-53) <= / 2)%R).
  { split; [apply bpow_gt_0|]. change (/2)%R with (bpow radix2 (-1)). apply bpow_le. lia. }
  assert (U : (ulp radix2 fexp64 p <= p * bpow radix2 (1 - 53))%R).
  { pose proof (ulp_FLT_le radix2 (SpecFloat.emin 53 1024) 53 p) as H.
    change (FLT_exp (SpecFloat.emin 53 1024) 53) with fexp64 in H.
    rewrite Rabs_pos_eq in H by lra. apply H.
    apply Rle_trans with (/2)%R; [|lra].
    change (/2)%R with (bpow radix2 (-1)). apply bpow_le. vm_compute. discriminate. }
  assert (SU : (p + ulp radix2 fexp64 p = IZR n)%R).
  { rewrite <- Sp. symmetry. apply succ_eq_pos. lra. }
  assert (B52 : bpow radix2 (1 - 53) = (2 * bpow radix2 (-53))%R).
  { change (2%R) with (bpow radix2 1). rewrite <- bpow_plus. reflexivity. }
  rewrite B52 in U.
  apply Rle_lt_trans with ((1 - bpow radix2 (-53)) * IZR n)%R.
  - apply Rmult_le_compat_r; lra.
  - assert (p * bpow radix2 (-53) < IZR n * bpow radix2 (-53))%R by (apply Rmult_lt_compat_r; lra).
    lra.
Qed.

(** Value of [floor] and truncation. *)
Lemma dfloor_fin : forall x, is_finite (dfloor x) = is_finite x.
Proof. intros. unfold dfloor. apply (Bnearbyint_correct 53 1024 Hmax64). Qed.

Lemma round_FIX0 : forall rnd {V : Valid_rnd rnd} x, round radix2 (FIX_exp 0) rnd x = IZR (rnd x).
Proof.
  intros rnd V x. unfold round, scaled_mantissa, cexp, FIX_exp, F2R. cbn.
  rewrite !Rmult_1_r. reflexivity.
Qed.

Lemma dfloor_val : forall x, B2R (dfloor x) = IZR (Zfloor (B2R x)).
Proof.
  intros. unfold dfloor. destruct (Bnearbyint_correct 53 1024 Hmax64 mode_DN x) as [A _].
  rewrite A. cbn [round_mode]. apply round_FIX0. apply valid_rnd_DN.
Qed.

Lemma Btrunc_val : forall x : dbl, Btrunc x = Ztrunc (B2R x).
Proof.
  intros. apply eq_IZR. rewrite (Btrunc_correct 53 1024 Hmax64). apply round_FIX0. apply valid_rnd_ZR.
Qed.

(** [static_cast<int>(floor(r * n))] and variants. *)
Lemma d2int_ok : forall x : dbl, is_finite x = true -> 0 <= Ztrunc (B2R x) <= 2147483647 ->
  d2int x = Ok (Ztrunc (B2R x)).
Proof.
  intros x F H. unfold d2int. rewrite F, Btrunc_val.
  destruct (Z.leb_spec (-2147483648) (Ztrunc (B2R x))); [|lia].
  destruct (Z.leb_spec (Ztrunc (B2R x)) 2147483647); [reflexivity|lia].
Qed.

Lemma d2uint_ok : forall x : dbl, is_finite x = true -> 0 <= Ztrunc (B2R x) <= 4294967295 ->
  d2uint x = Ok (Ztrunc (B2R x)).
Proof.
  intros x F H. unfold d2uint. rewrite F, Btrunc_val.
  destruct (Z.leb_spec 0 (Ztrunc (B2R x))); [|lia].
  destruct (Z.leb_spec (Ztrunc (B2R x)) 4294967295); [reflexivity|lia].
Qed.

Lemma Zfloor_range : forall x n, (0 <= x)%R -> (x <= IZR n)%R -> 0 <= Zfloor x <= n.
Proof.
  intros x n H0 H1. split.
  - apply Zfloor_lub. exact H0.
  - apply le_IZR. apply Rle_trans with x; auto. apply Zfloor_lb.
Qed.

Lemma Zfloor_range_lt : forall x n, (0 <= x)%R -> (x < IZR n)%R -> 0 <= Zfloor x < n.
Proof.
  intros x n H0 H1. split.
  - apply Zfloor_lub. exact H0.
  - apply lt_IZR. apply Rle_lt_trans with x; auto. apply Zfloor_lb.
Qed.

Lemma floor_unit_closed : forall r n, unit_closed r -> 0 <= n <= 2147483647 ->
  exists k, d2int (dfloor (dmul r (dofZ n))) = Ok k /\
            d2uint (dfloor (dmul r (dofZ n))) = Ok k /\ 0 <= k <= n.
Proof.
  intros r n [Fr Hr] Hn. destruct (dmul_unit r n Fr Hr) as [A [B C]]; [lia|].
  assert (V : Ztrunc (B2R (dfloor (dmul r (dofZ n)))) = Zfloor (B2R (dmul r (dofZ n)))).
  { rewrite dfloor_val. apply Ztrunc_IZR. }
  pose proof (Zfloor_range (B2R (dmul r (dofZ n))) n) as H. rewrite A in H.
  specialize (H (proj1 C) (proj2 C)). rewrite <- A in H.
  exists (Zfloor (B2R (dmul r (dofZ n)))). rewrite <- V in *.
  split; [|split]; auto.
  - apply d2int_ok; [now rewrite dfloor_fin | lia].
  - apply d2uint_ok; [now rewrite dfloor_fin | lia].
Qed.

Lemma floor_unit_open : forall r n, unit_open r -> 1 <= n <= 2147483647 ->
  exists k, d2int (dfloor (dmul r (dofZ n))) = Ok k /\
            d2uint (dfloor (dmul r (dofZ n))) = Ok k /\ 0 <= k < n.
Proof.
  intros r n [Fr Hr] Hn. destruct (dmul_unit r n Fr) as [A [B C]]; [lra|lia|].
  pose proof (dmul_unit_lt r n Fr Hr) as L. specialize (L ltac:(lia)).
  assert (V : Ztrunc (B2R (dfloor (dmul r (dofZ n)))) = Zfloor (B2R (dmul r (dofZ n)))).
  { rewrite dfloor_val. apply Ztrunc_IZR. }
  pose proof (Zfloor_range_lt (B2R (dmul r (dofZ n))) n) as H. rewrite A in H.
  specialize (H (proj1 C) L). rewrite <- A in H.
  exists (Zfloor (B2R (dmul r (dofZ n)))). rewrite <- V in *.
  split; [|split]; auto.
  - apply d2int_ok; [now rewrite dfloor_fin | lia].
  - apply d2uint_ok; [now rewrite dfloor_fin | lia].
Qed.

Lemma unit_open_closed : forall r, unit_open r -> unit_closed r.
Proof. intros r [F H]. split; auto. lra. Qed.
