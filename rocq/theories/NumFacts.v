(** * NumFacts: rounding of single operations, exact integer arithmetic, sums *)
From Coq Require Import ZArith Reals Bool Lia Lra List.
From Flocq Require Import Core BinarySingleNaN.
From Verif Require Import CppBase CppFacts Dbl DblFacts NumOps.
Import ListNotations.
Local Open Scope Z_scope.

Notation huge := (bpow radix2 1000).

Lemma huge_1024 : (huge < bpow radix2 1024)%R.
Proof. apply bpow_lt. lia. Qed.

Lemma format_huge : generic_format radix2 fexp64 huge.
Proof.
  change fexp64 with (FLT_exp (SpecFloat.emin 53 1024) 53).
  apply generic_format_FLT_bpow; [exact Hprec64 | vm_compute; discriminate].
Qed.

Lemma rnd_le : forall x y, (x <= y)%R -> (rnd64 x <= rnd64 y)%R.
Proof. intros. apply round_le; auto; [exact valid64 | apply valid_rnd_N]. Qed.

Lemma rnd_id : forall x, generic_format radix2 fexp64 x -> rnd64 x = x.
Proof. intros. apply round_generic; auto. apply valid_rnd_N. Qed.

Lemma rnd_Z : forall n, Z.abs n <= 2 ^ 53 -> rnd64 (IZR n) = IZR n.
Proof. intros. apply rnd_id. now apply format_Z. Qed.

Lemma rnd_0 : rnd64 0 = 0%R.
Proof. apply (rnd_Z 0). vm_compute. discriminate. Qed.

Lemma rnd_ge_Z : forall n x, Z.abs n <= 2 ^ 53 -> (IZR n <= x)%R -> (IZR n <= rnd64 x)%R.
Proof. intros. rewrite <- (rnd_Z n) by auto. now apply rnd_le. Qed.
Lemma rnd_le_Z : forall n x, Z.abs n <= 2 ^ 53 -> (x <= IZR n)%R -> (rnd64 x <= IZR n)%R.
Proof. intros. rewrite <- (rnd_Z n) by auto. now apply rnd_le. Qed.

Lemma rnd_huge : forall x, (Rabs x <= huge)%R -> (Rabs (rnd64 x) < bpow radix2 1024)%R.
Proof.
  intros x H. apply Rle_lt_trans with huge; [|exact huge_1024].
  apply abs_round_le_generic; auto; [exact valid64 | apply valid_rnd_N | exact format_huge].
Qed.

Lemma dadd_R : forall x y : dbl, is_finite x = true -> is_finite y = true ->
  (Rabs (B2R x + B2R y) <= huge)%R ->
  B2R (dadd x y) = rnd64 (B2R x + B2R y) /\ is_finite (dadd x y) = true.
Proof.
  intros x y Fx Fy H. pose proof (Bplus_correct 53 1024 Hprec64 Hmax64 mode_NE x y Fx Fy) as C.
  change (round_mode mode_NE) with ZnearestE in C. rewrite Rlt_bool_true in C by now apply rnd_huge.
  destruct C as [A [B _]]. auto.
Qed.

Lemma dsub_R : forall x y : dbl, is_finite x = true -> is_finite y = true ->
  (Rabs (B2R x - B2R y) <= huge)%R ->
  B2R (dsub x y) = rnd64 (B2R x - B2R y) /\ is_finite (dsub x y) = true.
Proof.
  intros x y Fx Fy H. pose proof (Bminus_correct 53 1024 Hprec64 Hmax64 mode_NE x y Fx Fy) as C.
  change (round_mode mode_NE) with ZnearestE in C. rewrite Rlt_bool_true in C by now apply rnd_huge.
  destruct C as [A [B _]]. auto.
Qed.

Lemma dmul_R : forall x y : dbl, is_finite x = true -> is_finite y = true ->
  (Rabs (B2R x * B2R y) <= huge)%R ->
  B2R (dmul x y) = rnd64 (B2R x * B2R y) /\ is_finite (dmul x y) = true.
Proof.
  intros x y Fx Fy H. pose proof (Bmult_correct 53 1024 Hprec64 Hmax64 mode_NE x y) as C.
  change (round_mode mode_NE) with ZnearestE in C. rewrite Rlt_bool_true in C by now apply rnd_huge.
  destruct C as [A [B _]]. rewrite Fx, Fy in B. auto.
Qed.

Lemma ddiv_R : forall x y : dbl, is_finite x = true -> B2R y <> 0%R ->
  (Rabs (B2R x / B2R y) <= huge)%R ->
  B2R (ddiv x y) = rnd64 (B2R x / B2R y) /\ is_finite (ddiv x y) = true.
Proof.
  intros x y Fx Ny H. pose proof (Bdiv_correct 53 1024 Hprec64 Hmax64 mode_NE x y Ny) as C.
  change (round_mode mode_NE) with ZnearestE in C. rewrite Rlt_bool_true in C by now apply rnd_huge.
  destruct C as [A [B _]]. rewrite Fx in B. auto.
Qed.

Lemma huge_Z : forall n x, Z.abs n <= 2 ^ 53 -> (Rabs x <= Rabs (IZR n))%R -> (Rabs x <= huge)%R.
Proof.
  intros n x Hn H. apply Rle_trans with (1 := H). rewrite <- abs_IZR.
  apply Rle_trans with (bpow radix2 53).
  - change (bpow radix2 53) with (IZR (2 ^ 53)). now apply IZR_le.
  - apply bpow_le. lia.
Qed.

(** Integer quotient. *)
Lemma ddivZ : forall a b, Z.abs a <= 2 ^ 53 -> Z.abs b <= 2 ^ 53 -> b <> 0 ->
  B2R (ddiv (dofZ a) (dofZ b)) = rnd64 (IZR a / IZR b) /\ is_finite (ddiv (dofZ a) (dofZ b)) = true.
Proof.
  intros a b Ha Hb Nb. destruct (dofZ_exact a Ha) as [Ra Fa]. destruct (dofZ_exact b Hb) as [Rb Fb].
  rewrite <- Ra, <- Rb. apply ddiv_R; auto.
  - rewrite Rb. now apply not_0_IZR.
  - rewrite Ra, Rb. apply huge_Z with a; auto. unfold Rdiv. rewrite Rabs_mult, Rabs_inv.
    assert (1 <= Rabs (IZR b))%R. { rewrite <- abs_IZR. apply IZR_le. lia. }
    rewrite <- (Rmult_1_r (Rabs (IZR a))) at 2. apply Rmult_le_compat_l; [apply Rabs_pos|].
    rewrite <- Rinv_1. apply Rinv_le_contravar; lra.
Qed.

(** Sign of an integer converted to double. *)
Lemma dofZ_sign : forall n, Z.abs n <= 2 ^ 53 -> Bsign (dofZ n) = (n <? 0).
Proof.
  intros n Hn. unfold dofZ.
  generalize (binary_normalize_correct 53 1024 Hprec64 Hmax64 mode_NE n 0 false).
  cbn zeta. replace (F2R (Float radix2 n 0)) with (IZR n) by (unfold F2R; cbn; ring).
  rewrite round_generic; [|apply valid_rnd_N | now apply format_Z].
  rewrite Rlt_bool_true by now apply bpow_emax_big.
  intros [_ [_ C]]. rewrite C. destruct (Rcompare_spec (IZR n) 0) as [H|H|H].
  - apply lt_IZR in H. symmetry. now apply Z.ltb_lt.
  - apply eq_IZR in H. subst. reflexivity.
  - apply lt_IZR in H. symmetry. apply Z.ltb_ge. lia.
Qed.

Lemma dofZ_unique : forall (x : dbl) n, Z.abs n <= 2 ^ 53 -> is_finite x = true ->
  B2R x = IZR n -> Bsign x = (n <? 0) -> x = dofZ n.
Proof.
  intros x n Hn Fx Rx Sx. destruct (dofZ_exact n Hn) as [Rn Fn].
  apply B2R_Bsign_inj; auto; [congruence|]. now rewrite dofZ_sign.
Qed.

(** ** Operations that are exact on small non-negative integers *)
Definition exactZ (O : ops) (B : Z) : Prop :=
  (forall a b, 0 <= a -> 0 <= b -> a + b <= B -> nadd O (nofZ O a) (nofZ O b) = nofZ O (a + b)) /\
  (forall a b, 0 <= a <= B -> 0 <= b <= B -> nsub O (nofZ O a) (nofZ O b) = nofZ O (a - b)) /\
  (forall a b, 0 <= a <= B -> 0 <= b <= B -> a * b <= B -> nmul O (nofZ O a) (nofZ O b) = nofZ O (a * b)).

Lemma rops_exact : forall B, exactZ rops B.
Proof.
  intros B. split; [|split]; intros; cbn [nadd nsub nmul nofZ rops].
  - now rewrite plus_IZR.
  - now rewrite minus_IZR.
  - now rewrite mult_IZR.
Qed.

Lemma exactZ_le : forall O B B', B <= B' -> exactZ O B' -> exactZ O B.
Proof.
  intros O B B' H [A [S M]].
  split; [|split]; intros; [apply A|apply S|apply M]; lia.
Qed.

Lemma Z_huge : forall n x, Z.abs n <= 2 ^ 53 -> x = IZR n -> (Rabs x <= huge)%R.
Proof. intros n x H ->. apply huge_Z with n; auto. lra. Qed.

Lemma dops_exact : exactZ dops (2 ^ 53).
Proof.
  split; [|split]; intros a b; cbn [nadd nsub nmul nofZ dops].
  - intros Ha Hb Hab. destruct (dofZ_exact a) as [Ra Fa]; [lia|]. destruct (dofZ_exact b) as [Rb Fb]; [lia|].
    assert (E : (B2R (dofZ a) + B2R (dofZ b) = IZR (a + b))%R) by (rewrite Ra, Rb, plus_IZR; ring).
    destruct (dadd_R (dofZ a) (dofZ b) Fa Fb) as [R F]. { apply Z_huge with (a + b); [lia|exact E]. }
    rewrite E, rnd_Z in R by lia. apply dofZ_unique; auto; [lia|].
    pose proof (Bplus_correct 53 1024 Hprec64 Hmax64 mode_NE (dofZ a) (dofZ b) Fa Fb) as C.
    change (round_mode mode_NE) with ZnearestE in C. rewrite E, rnd_Z in C by lia.
    rewrite Rlt_bool_true in C by (apply bpow_emax_big; lia). destruct C as [_ [_ C]].
    fold (dadd (dofZ a) (dofZ b)) in C. rewrite C. rewrite !dofZ_sign by lia.
    destruct (Rcompare_spec (IZR (a + b)) 0) as [H|H|H].
    + apply lt_IZR in H. lia.
    + apply eq_IZR in H. assert (a = 0) by lia. assert (b = 0) by lia. subst. reflexivity.
    + apply lt_IZR in H. symmetry. apply Z.ltb_ge. lia.
  - intros Ha Hb. destruct (dofZ_exact a) as [Ra Fa]; [lia|]. destruct (dofZ_exact b) as [Rb Fb]; [lia|].
    assert (E : (B2R (dofZ a) - B2R (dofZ b) = IZR (a - b))%R) by (rewrite Ra, Rb, minus_IZR; ring).
    destruct (dsub_R (dofZ a) (dofZ b) Fa Fb) as [R F]. { apply Z_huge with (a - b); [lia|exact E]. }
    rewrite E, rnd_Z in R by lia. apply dofZ_unique; auto; [lia|].
    pose proof (Bminus_correct 53 1024 Hprec64 Hmax64 mode_NE (dofZ a) (dofZ b) Fa Fb) as C.
    change (round_mode mode_NE) with ZnearestE in C. rewrite E, rnd_Z in C by lia.
    rewrite Rlt_bool_true in C by (apply bpow_emax_big; lia). destruct C as [_ [_ C]].
    fold (dsub (dofZ a) (dofZ b)) in C. rewrite C. rewrite !dofZ_sign by lia.
    destruct (Rcompare_spec (IZR (a - b)) 0) as [H|H|H].
    + apply lt_IZR in H. symmetry. apply Z.ltb_lt. lia.
    + apply eq_IZR in H. assert (a = b) by lia. subst.
      destruct (Z.ltb_spec b 0); [lia|]. destruct (Z.ltb_spec (b - b) 0); [lia|]. reflexivity.
    + apply lt_IZR in H. symmetry. apply Z.ltb_ge. lia.
  - intros Ha Hb Hab. destruct (dofZ_exact a) as [Ra Fa]; [lia|]. destruct (dofZ_exact b) as [Rb Fb]; [lia|].
    assert (E : (B2R (dofZ a) * B2R (dofZ b) = IZR (a * b))%R) by (rewrite Ra, Rb, mult_IZR; ring).
    assert (P : Z.abs (a * b) <= 2 ^ 53) by (rewrite Z.abs_eq; [lia|nia]).
    destruct (dmul_R (dofZ a) (dofZ b) Fa Fb) as [R F]. { apply Z_huge with (a * b); [exact P|exact E]. }
    rewrite E, rnd_Z in R by exact P. apply dofZ_unique; auto.
    pose proof (Bmult_correct 53 1024 Hprec64 Hmax64 mode_NE (dofZ a) (dofZ b)) as C.
    change (round_mode mode_NE) with ZnearestE in C. rewrite E, rnd_Z in C by exact P.
    rewrite Rlt_bool_true in C by (apply bpow_emax_big; exact P). destruct C as [_ [_ C]].
    fold (dmul (dofZ a) (dofZ b)) in C. rewrite C by now destruct (dmul (dofZ a) (dofZ b)).
    rewrite !dofZ_sign by lia. destruct (Z.ltb_spec a 0); [lia|]. destruct (Z.ltb_spec b 0); [lia|].
    destruct (Z.ltb_spec (a * b) 0); [nia|]. reflexivity.
Qed.

(** ** Finite sums of integers *)
Fixpoint zsum (f : Z -> Z) (n : nat) : Z :=
  match n with
  | O => 0
  | S n' => zsum f n' + f (Z.of_nat n')
  end.

Lemma zsum_ext : forall f g n, (forall i, 0 <= i < Z.of_nat n -> f i = g i) -> zsum f n = zsum g n.
Proof. induction n as [|n IH]; intros H; cbn [zsum]; auto. rewrite IH, H; auto; try lia. intros; apply H; lia. Qed.
Lemma zsum_add : forall f g n, zsum (fun i => f i + g i) n = zsum f n + zsum g n.
Proof. induction n as [|n IH]; cbn [zsum]; auto. rewrite IH. ring. Qed.
Lemma zsum_scal : forall c f n, zsum (fun i => c * f i) n = c * zsum f n.
Proof. induction n as [|n IH]; cbn [zsum]; [ring|]. rewrite IH. ring. Qed.
Lemma zsum_le : forall f g n, (forall i, 0 <= i < Z.of_nat n -> f i <= g i) -> zsum f n <= zsum g n.
Proof.
  induction n as [|n IH]; intros H; cbn [zsum]; [lia|].
  assert (f (Z.of_nat n) <= g (Z.of_nat n)) by (apply H; lia).
  assert (zsum f n <= zsum g n) by (apply IH; intros; apply H; lia). lia.
Qed.
Lemma zsum_nonneg : forall f n, (forall i, 0 <= i < Z.of_nat n -> 0 <= f i) -> 0 <= zsum f n.
Proof.
  induction n as [|n IH]; intros H; cbn [zsum]; [lia|].
  assert (0 <= f (Z.of_nat n)) by (apply H; lia).
  assert (0 <= zsum f n) by (apply IH; intros; apply H; lia). lia.
Qed.
Lemma zsum_mono : forall f n m, (n <= m)%nat -> (forall i, 0 <= i < Z.of_nat m -> 0 <= f i) -> zsum f n <= zsum f m.
Proof.
  intros f n m H P. induction H as [|m H IH]; [lia|]. cbn [zsum].
  assert (0 <= f (Z.of_nat m)) by (apply P; lia). assert (zsum f n <= zsum f m) by (apply IH; intros; apply P; lia). lia.
Qed.
Lemma zsum_term : forall f n i, (forall j, 0 <= j < Z.of_nat n -> 0 <= f j) -> 0 <= i < Z.of_nat n -> f i <= zsum f n.
Proof.
  induction n as [|n IH]; intros i P H; [lia|]. cbn [zsum].
  assert (0 <= f (Z.of_nat n)) by (apply P; lia).
  assert (0 <= zsum f n) by (apply zsum_nonneg; intros; apply P; lia).
  destruct (Z.eq_dec i (Z.of_nat n)) as [->|N]; [lia|].
  assert (f i <= zsum f n) by (apply IH; [intros; apply P; lia | lia]). lia.
Qed.
Lemma zsum_zero : forall n, zsum (fun _ => 0) n = 0.
Proof. induction n as [|n IH]; cbn [zsum]; lia. Qed.
Lemma zsum_single : forall n i v, 0 <= i < Z.of_nat n -> zsum (fun j => if i =? j then v else 0) n = v.
Proof.
  induction n as [|n IH]; intros i v H; [lia|]. cbn [zsum].
  destruct (Z.eq_dec i (Z.of_nat n)) as [E|N].
  - rewrite (zsum_ext _ (fun _ => 0)), zsum_zero.
    + rewrite E, Z.eqb_refl. lia.
    + intros j Hj. destruct (Z.eqb_spec i j); lia.
  - rewrite IH by lia. destruct (Z.eqb_spec i (Z.of_nat n)); lia.
Qed.
Lemma zsum_swap : forall f n m, zsum (fun i => zsum (fun j => f i j) m) n = zsum (fun j => zsum (fun i => f i j) n) m.
Proof.
  induction n as [|n IH]; intros m; cbn [zsum].
  - symmetry. apply zsum_zero.
  - rewrite IH, <- zsum_add. reflexivity.
Qed.

(** A loop adding integers in exact arithmetic computes the sum. *)
Lemma sum_loop : forall O B (f : Z -> Z) n,
  exactZ O B -> (forall i, 0 <= i < Z.of_nat n -> 0 <= f i) -> zsum f n <= B ->
  forZ n 0 (fun i s => Ok (nadd O s (nofZ O (f i)))) (nofZ O 0) = Ok (nofZ O (zsum f n)).
Proof.
  intros O B f n [EA _] P HB.
  destruct (forZ_inv _ (fun i s => s = nofZ O (zsum f (Z.to_nat i)))
    (fun i s => Ok (nadd O s (nofZ O (f i)))) n 0 (nofZ O 0)) as [s [H1 H2]].
  - reflexivity.
  - intros j s Hj ->. eexists. split; [reflexivity|]. replace (Z.to_nat (j + 1)) with (S (Z.to_nat j)) by lia.
    cbn [zsum]. rewrite Z2Nat.id by lia. apply EA.
    + apply zsum_nonneg. intros; apply P; lia.
    + apply P; lia.
    + assert (zsum f (S (Z.to_nat j)) <= zsum f n) by (apply zsum_mono; [lia|exact P]).
      cbn [zsum] in H. rewrite Z2Nat.id in H by lia. lia.
  - rewrite H1, H2, Z.add_0_l, Nat2Z.id. reflexivity.
Qed.
