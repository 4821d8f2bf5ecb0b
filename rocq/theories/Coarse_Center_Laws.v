(** * Laws of binary64 for the barycenter extension *)
From Coq Require Import ZArith List Bool Lia Reals Lra.
From Flocq Require Import Core BinarySingleNaN.
From Verif Require Import CppBase CppFacts Dbl DblFacts NumOps NumFacts Utils_Model Utils_Spec Utils_Proofs MCNN_Num Mondrian_Spec Mondrian_Num Coarse_Center.
Local Open Scope Z_scope.

Lemma not_neg : forall t : dbl, dlt t (dofZ 0) = false -> t = dnan \/ t = B754_infinity false \/ (is_finite t = true /\ (0 <= B2R t)%R).
Proof.
  intros t H. destruct t as [s|[|]| |s m e He]; [right; right; split; [reflexivity|cbn; lra]|discriminate|now right; left|now left|].
  right; right. split; [reflexivity|]. destruct (Rle_lt_dec 0 (B2R (B754_finite s m e He))) as [X|X]; [exact X|exfalso].
  assert (Y : dlt (B754_finite s m e He) (dofZ 0) = true) by (apply dlt_true; auto). congruence.
Qed.
Lemma abs_lt : forall x : dbl, (Rabs (B2R x) < bpow radix2 1024)%R.
Proof. intros x. apply (abs_B2R_lt_emax 53 1024 x). Qed.
Lemma rnd_between : forall x a b : R, (rnd64 a = a)%R -> (rnd64 b = b)%R -> (a <= x <= b)%R -> (a <= rnd64 x <= b)%R.
Proof. intros x a b Ha Hb [H1 H2]. split; [rewrite <- Ha|rewrite <- Hb]; now apply rnd_le. Qed.
Lemma rnd_neg : forall x : dbl, (rnd64 (- B2R x) = - B2R x)%R.
Proof. intros x. rewrite <- (B2R_Bopp 53 1024 x). apply (rnd_dbl (Bopp x)). Qed.

(** A time between two times that are not negative is not negative. *)
Lemma mid_dops : forall t0 t u : dbl, dlt t0 (dofZ 0) = false -> dlt t (dofZ 0) = false -> ddraw u -> dlt (dadd t0 (dmul (dsub t t0) u)) (dofZ 0) = false.
Proof.
  intros t0 t u H0 H [Fu Hu]. destruct (not_neg t0 H0) as [-> |[-> |[F0 P0]]].
  - destruct (dmul (dsub t dnan) u); reflexivity.
  - destruct (dmul (dsub t (B754_infinity false)) u) as [s|[|]| |s m e He]; reflexivity.
  - destruct (not_neg t H) as [-> |[-> |[F P]]].
    + replace (dadd t0 (dmul (dsub dnan t0) u)) with dnan; [reflexivity|]. destruct t0, u; reflexivity.
    + replace (dmul (dsub (B754_infinity false) t0) u) with (B754_infinity false : dbl).
      * destruct t0; try discriminate; reflexivity.
      * destruct u as [s|s| |s m e He]; try discriminate; [cbn in Hu; lra|]. destruct s; [|destruct t0; try discriminate; reflexivity].
        exfalso. cbn [B2R] in Hu. assert (F2R (Float radix2 (cond_Zopp true (Zpos m)) e) < 0)%R by (apply F2R_lt_0; reflexivity). lra.
    + pose proof (abs_lt t) as A. pose proof (abs_lt t0) as A0. apply Rabs_lt_inv in A, A0.
      assert (D : is_finite (dsub t t0) = true /\ (- B2R t0 <= B2R (dsub t t0) <= B2R t)%R).
      { pose proof (Bminus_correct 53 1024 Hprec64 Hmax64 mode_NE t t0 F F0) as C. change (Bminus mode_NE t t0) with (dsub t t0) in C. change (round_mode mode_NE) with ZnearestE in C.
        assert (B : (- B2R t0 <= rnd64 (B2R t - B2R t0) <= B2R t)%R) by (apply rnd_between; [apply rnd_neg|apply rnd_dbl|lra]).
        rewrite Rlt_bool_true in C by (apply Rabs_def1; lra). destruct C as [C1 [C2 _]]. rewrite C1. auto. }
      destruct D as [Fd Bd]. set (d := dsub t t0) in *. clearbody d.
      assert (D : is_finite (dmul d u) = true /\ (- B2R t0 <= B2R (dmul d u) <= B2R t)%R).
      { pose proof (Bmult_correct 53 1024 Hprec64 Hmax64 mode_NE d u) as C. change (Bmult mode_NE d u) with (dmul d u) in C. change (round_mode mode_NE) with ZnearestE in C.
        assert (B : (- B2R t0 <= rnd64 (B2R d * B2R u) <= B2R t)%R) by (apply rnd_between; [apply rnd_neg|apply rnd_dbl|split; nra]).
        rewrite Rlt_bool_true in C by (apply Rabs_def1; lra). destruct C as [C1 [C2 _]]. rewrite C1, C2, Fd, Fu. auto. }
      destruct D as [Fm Bm]. set (m := dmul d u) in *. clearbody m.
      pose proof (Bplus_correct 53 1024 Hprec64 Hmax64 mode_NE t0 m F0 Fm) as C. change (Bplus mode_NE t0 m) with (dadd t0 m) in C. change (round_mode mode_NE) with ZnearestE in C.
      assert (B : (0 <= rnd64 (B2R t0 + B2R m))%R) by (rewrite <- rnd_0; apply rnd_le; lra).
      destruct (Rlt_bool_spec (Rabs (rnd64 (B2R t0 + B2R m))) (bpow radix2 1024)) as [X|X].
      * destruct C as [C1 [C2 _]]. destruct (dlt (dadd t0 m) (dofZ 0)) eqn:E; [|reflexivity]. apply dlt_true in E; auto. rewrite C1 in E. change (B2R (dofZ 0)) with 0%R in E. lra.
      * destruct C as [C1 C2]. destruct (Bsign t0) eqn:S0.
        -- exfalso. assert (Z0 : B2R t0 = 0%R).
           { destruct t0 as [s|s| |s q e He]; try discriminate; [reflexivity|]. cbn [Bsign] in S0. subst s. cbn [B2R] in P0.
             assert (F2R (Float radix2 (cond_Zopp true (Zpos q)) e) < 0)%R by (apply F2R_lt_0; reflexivity). lra. }
           rewrite Z0, Rplus_0_l, rnd_dbl in X. pose proof (abs_lt m). lra.
        -- assert (E : dadd t0 m = B754_infinity false) by (destruct (dadd t0 m); cbn in C1; try discriminate; injection C1 as <-; reflexivity). rewrite E. reflexivity.
Qed.

(** A share that is a number divided by itself is all, or not a number. *)
Lemma self_div : forall z : dbl, ddiv z z = dnan \/ (is_finite (ddiv z z) = true /\ B2R (ddiv z z) = 1%R).
Proof.
  intros z. destruct z as [s|s| |s m e He]; [left; reflexivity ..|]. right. set (z := B754_finite s m e He : dbl).
  assert (N : B2R z <> 0%R). { intros X. apply (F2R_neq_0 radix2 (Float radix2 (cond_Zopp s (Zpos m)) e)) in X; auto. destruct s; discriminate. }
  pose proof (Bdiv_correct 53 1024 Hprec64 Hmax64 mode_NE z z N) as C. change (Bdiv mode_NE z z) with (ddiv z z) in C. change (round_mode mode_NE) with ZnearestE in C.
  replace (B2R z / B2R z)%R with 1%R in C by (field; exact N).
  assert (R1 : (rnd64 1 = 1)%R) by (destruct (dofZ_exact 1 ltac:(lia)) as [V _]; rewrite <- V; apply rnd_dbl). rewrite R1 in C.
  rewrite Rlt_bool_true in C by (rewrite Rabs_R1; change 1%R with (bpow radix2 0); apply bpow_lt; lia). destruct C as [C1 [C2 _]]. auto.
Qed.
Lemma clipped : forall p : dbl, p = dnan \/ (is_finite p = true /\ (B2R p <= 0 \/ B2R p >= 1)%R) ->
  (if dlt (if dlt (dofZ 0) p then p else dofZ 0) (dofZ 1) then (if dlt (dofZ 0) p then p else dofZ 0) else dofZ 1) = (if dlt (dofZ 0) p then dofZ 1 else dofZ 0).
Proof.
  intros p H. destruct (dlt (dofZ 0) p) eqn:E; [|reflexivity]. destruct H as [-> |[F B]]; [reflexivity|]. apply dlt_true in E; auto. change (B2R (dofZ 0)) with 0%R in E.
  destruct (dlt p (dofZ 1)) eqn:E1; [|reflexivity]. destruct (dofZ_exact 1 ltac:(lia)) as [V F1]. apply dlt_true in E1; auto. rewrite V in E1. lra.
Qed.
Lemma no_share : forall (s z : dbl), dlt (dofZ 0) (ddiv (dsub s s) z) = false.
Proof.
  intros s z. assert (X : dsub s s = dnan \/ exists b, dsub s s = B754_zero b).
  { destruct s as [b|b| |b m e He]; [right; destruct b; eexists; reflexivity|left; destruct b; reflexivity|left; reflexivity|right].
    set (s := B754_finite b m e He : dbl). pose proof (Bminus_correct 53 1024 Hprec64 Hmax64 mode_NE s s eq_refl eq_refl) as C. change (Bminus mode_NE s s) with (dsub s s) in C. change (round_mode mode_NE) with ZnearestE in C.
    rewrite Rminus_diag_eq, rnd_0 in C by reflexivity. rewrite Rlt_bool_true in C by (rewrite Rabs_R0; apply bpow_gt_0). destruct C as [C1 [C2 _]].
    destruct (dsub s s) as [b'|b'| |b' m' e' He']; try discriminate; [eauto|]. exfalso. cbn [B2R] in C1. apply (F2R_neq_0 radix2 (Float radix2 (cond_Zopp b' (Zpos m')) e')) in C1; auto. destruct b'; discriminate. }
  destruct X as [-> |[b ->]]; [destruct z as [b1|b1| |b1 m1 e1 H1]; reflexivity|]. destruct z as [b1|b1| |b1 m1 e1 H1]; destruct b; try destruct b1; reflexivity.
Qed.
(** All of a count, or none of it. *)
Lemma round_none : forall q x, round dops dhalf (dmul (dofZ q) (dofZ 0)) = Ok x -> x = 0.
Proof.
  intros q x H. unfold round in H. cbn [nlt n2int nadd nsub nofZ dops num] in H. destruct (dofZ q) as [b|b| |b m e He].
  - destruct b; vm_compute in H; now injection H.
  - destruct b; vm_compute in H; discriminate.
  - vm_compute in H. discriminate.
  - change (dmul (B754_finite b m e He) (dofZ 0)) with (B754_zero (xorb b false) : dbl) in H. destruct b; vm_compute in H; now injection H.
Qed.
Lemma times_one : forall a : dbl, is_finite a = true -> is_finite (dmul a (dofZ 1)) = true /\ B2R (dmul a (dofZ 1)) = B2R a.
Proof.
  intros a F. pose proof (Bmult_correct 53 1024 Hprec64 Hmax64 mode_NE a (dofZ 1)) as C. change (Bmult mode_NE a (dofZ 1)) with (dmul a (dofZ 1)) in C. change (round_mode mode_NE) with ZnearestE in C.
  destruct (dofZ_exact 1 ltac:(lia)) as [V F1]. rewrite V, Rmult_1_r, rnd_dbl in C. rewrite Rlt_bool_true in C by apply abs_lt. destruct C as [C1 [C2 _]]. rewrite C2, F, F1. auto.
Qed.
Lemma half_val : B2R dhalf = (/ 2)%R /\ is_finite dhalf = true.
Proof. split; [|reflexivity]. change dhalf with (dlit 1 (-1)). vm_compute. lra. Qed.
Lemma round_all : forall q x, 0 <= q -> round dops dhalf (dmul (dofZ q) (dofZ 1)) = Ok x -> x = q.
Proof.
  intros q x Hq H. unfold round in H. cbn [nlt n2int nadd nsub nofZ dops num] in H. destruct half_val as [Vh Fh].
  assert (P : is_finite (dofZ q) = true -> B2R (dofZ q) = rnd64 (IZR q)).
  { intros F. pose proof (binary_normalize_correct 53 1024 Hprec64 Hmax64 mode_NE q 0 false) as C. cbn zeta in C. change (binary_normalize 53 1024 Hprec64 Hmax64 mode_NE q 0 false) with (dofZ q) in C. change (round_mode mode_NE) with ZnearestE in C.
    replace (F2R (Float radix2 q 0)) with (IZR q) in C by (unfold F2R; cbn; ring). destruct (Rlt_bool _ _); [now destruct C|]. exfalso. destruct (dofZ q); try discriminate; cbn in C; destruct (Rlt_bool _ _) in C; discriminate. }
  destruct (is_finite (dofZ q)) eqn:F.
  2: { exfalso. destruct (dofZ q) as [b|b| |b m e He]; try discriminate; destruct b; vm_compute in H; discriminate. }
  specialize (P eq_refl). destruct (times_one _ F) as [Fv Ev]. set (v := dmul (dofZ q) (dofZ 1)) in *. clearbody v. rewrite P in Ev.
  assert (Q0 : (0 <= IZR q)%R) by (apply IZR_le; exact Hq). assert (V0 : (0 <= B2R v)%R) by (rewrite Ev, <- rnd_0; now apply rnd_le).
  assert (Nv : dlt v (dofZ 0) = false) by (destruct (dlt v (dofZ 0)) eqn:E; [|reflexivity]; apply dlt_true in E; auto; change (B2R (dofZ 0)) with 0%R in E; lra). rewrite Nv in H.
  pose proof (Bplus_correct 53 1024 Hprec64 Hmax64 mode_NE v dhalf Fv Fh) as C. change (Bplus mode_NE v dhalf) with (dadd v dhalf) in C. change (round_mode mode_NE) with ZnearestE in C.
  unfold d2int in H. destruct (is_finite (dadd v dhalf)) eqn:Fw; [|discriminate].
  assert (W : B2R (dadd v dhalf) = rnd64 (B2R v + / 2)).
  { rewrite <- Vh. destruct (Rlt_bool _ _); [now destruct C|]. exfalso. destruct C as [C _]. destruct (dadd v dhalf); try discriminate; cbn in C; discriminate. }
  rewrite Btrunc_val, W in H. destruct ((_ <=? _) && (_ <=? _)) eqn:B; [|discriminate]. apply andb_true_iff in B. destruct B as [_ B]. apply Z.leb_le in B. injection H as <-.
  destruct (Z_lt_le_dec q 2147483648) as [Q|Q].
  - destruct (dofZ_exact q ltac:(lia)) as [Vq _]. rewrite P in Vq. rewrite Ev, Vq.
    assert (G : (rnd64 (IZR q + / 2) = IZR q + / 2)%R).
    { apply round_generic; [apply valid_rnd_N|]. change fexp64 with (FLT_exp (SpecFloat.emin 53 1024) 53). apply generic_format_FLT. apply FLT_spec with (Float radix2 (2 * q + 1) (-1)).
      - unfold F2R. cbn [Fnum Fexp bpow]. rewrite plus_IZR, mult_IZR. change (Z.pow_pos radix2 1) with 2. lra.
      - cbn [Fnum]. change (radix2 ^ 53) with (2 ^ 53). lia.
      - vm_compute. discriminate. }
    rewrite G. rewrite Ztrunc_floor by lra. apply Zfloor_imp. rewrite plus_IZR. lra.
  - exfalso. assert (X : (IZR 2147483648 <= rnd64 (B2R v + / 2))%R).
    { assert (Y : (rnd64 (IZR 2147483648) = IZR 2147483648)%R) by (destruct (dofZ_exact 2147483648 ltac:(lia)) as [V _]; rewrite <- V; apply rnd_dbl).
      rewrite <- Y at 1. apply rnd_le. assert (Z1 : (IZR 2147483648 <= B2R v)%R) by (rewrite Ev, <- Y; apply rnd_le, IZR_le; exact Q). lra. }
    rewrite Ztrunc_floor in B by (apply IZR_le in Q; assert (0 <= IZR 2147483648)%R by (apply IZR_le; lia); lra). apply Zfloor_lub in X. lia.
Qed.
Lemma clean_dops : clean_cut dops.
Proof.
  assert (K : forall b : bool, exists all : bool, forall q x y, 0 <= q -> round dops dhalf (dmul (dofZ q) (if b then dofZ 1 else dofZ 0)) = Ok x ->
    round dops dhalf (dmul (dofZ q) (dsub (dofZ 1) (if b then dofZ 1 else dofZ 0))) = Ok y -> x = (if all then q else 0) /\ y = (if all then 0 else q)).
  { assert (E0 : dsub (dofZ 1) (dofZ 0) = dofZ 1) by (apply B2SF_inj; vm_compute; reflexivity). assert (E1 : dsub (dofZ 1) (dofZ 1) = dofZ 0) by (apply B2SF_inj; vm_compute; reflexivity).
    intros b. exists b. intros q x y Hq Hx Hy. destruct b; rewrite ?E0, ?E1 in Hy; split; eauto using round_all, round_none. }
  assert (Hh : ndiv dops (nofZ dops 1) (nofZ dops 2) = dhalf) by (apply B2SF_inj; vm_compute; reflexivity).
  assert (E0 : dsub (dofZ 1) (dofZ 0) = dofZ 1) by (apply B2SF_inj; vm_compute; reflexivity). assert (E1 : dsub (dofZ 1) (dofZ 1) = dofZ 0) by (apply B2SF_inj; vm_compute; reflexivity).
  constructor; intros lower split; rewrite Hh.
  - assert (P : exists b : bool, pct dops lower split split false = if b then dofZ 1 else dofZ 0).
    { exists (negb (dlt (dofZ 0) (ddiv (dsub split lower) (dsub split lower)))). unfold pct. cbn [nlt ndiv nsub nofZ dops num]. cbn zeta.
      assert (C := clipped (ddiv (dsub split lower) (dsub split lower))). cbn zeta in C. revert C. generalize (self_div (dsub split lower)). generalize (ddiv (dsub split lower) (dsub split lower)). intros p Sd C. rewrite C.
      - destruct (dlt (dofZ 0) p); cbn [negb]; assumption.
      - destruct Sd as [-> |[F ->]]; [now left|right]. split; [exact F|right; lra]. }
    destruct P as [b ->]. exact (K b).
  - assert (P : pct dops split lower split true = dofZ 0).
    { unfold pct. cbn [nlt ndiv nsub nofZ dops num]. cbn zeta. rewrite no_share. reflexivity. }
    rewrite P. exact (K false).
Qed.
